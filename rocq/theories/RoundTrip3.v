(** Building what describes a value gives an image of the value. *)
From Coq Require Import List NArith ZArith Bool Lia ZifyBool ZifyNat ZifyN Sorting.Sorted.
From Verif Require Import Base Dict ModelTags ModelPrim SpecPrim PrimFacts SpecNumber SpecArray ModelLog ModelArray ArrayFacts ArrayFacts2 ArrayFacts3 ModelValue ValueFacts KeyFacts SpecKey SpecMap
  ModelObject ModelMap MapFacts ModelBuffer SpecBuffer BufferFacts ModelHeap ModelDecode SpecWire SpecBuild BuildFacts DecodeSound ModelEncode SpecEncode SpecFail HashFacts
  EncodeFacts EncodeFacts2 SpecGraph ArrayBuild BuildPut RoundTrip RoundTrip2.
Import ListNotations.
Open Scope N_scope.

(** * Lists of properties *)
Lemma prop_split rep R (x : jsobj val) l : Forall2 (prop_image rep R) (own_items x) l ->
  exists es ns, l = int_items es ++ str_items ns /\ map fst es = map fst (entries_from 0 (aabs (jo_arr x))) /\ map fst ns = dkeys (jo_props x) /\
    Forall2 (image rep R) (map snd (entries_from 0 (aabs (jo_arr x)))) (map snd es) /\
    Forall2 (image rep R) (map snd (jo_props x)) (map snd ns) /\
    Forall2 (fun a b => fst a = fst b /\ image rep R (snd a) (snd b)) (entries_from 0 (aabs (jo_arr x))) es /\
    Forall2 (prop_image rep R) (named_items x) (str_items ns).
Proof.
  assert (A : forall es l, Forall2 (prop_image rep R) (int_items es) l -> exists es', l = int_items es' /\ map fst es' = map fst es /\
    Forall2 (image rep R) (map snd es) (map snd es') /\ Forall2 (fun a b => fst a = fst b /\ image rep R (snd a) (snd b)) es es').
  { induction es as [|[k v] es IH]; cbn [int_items map]; intros m F; inversion F as [|? [k' v'] ? m' [E1 E2] F']; subst.
    - exists []. repeat split; constructor.
    - cbn [fst snd] in *. destruct (IH _ F') as (es' & -> & E & G & G'). exists ((k, v') :: es'). cbn [map fst snd]. subst k'. rewrite E.
      repeat split; auto; constructor; auto. }
  assert (B : forall ns l, Forall2 (prop_image rep R) (str_items ns) l -> exists ns', l = str_items ns' /\ map fst ns' = map fst ns /\
    Forall2 (image rep R) (map snd ns) (map snd ns')).
  { induction ns as [|[k v] ns IH]; cbn [str_items map]; intros m F; inversion F as [|? [k' v'] ? m' [E1 E2] F']; subst.
    - exists []. repeat split; constructor.
    - cbn [fst snd] in *. destruct (IH _ F') as (es' & -> & E & G). exists ((k, v') :: es'). cbn [map fst snd]. subst k'. rewrite E.
      repeat split; auto; constructor; auto. }
  intros F. unfold own_items in F. apply Forall2_app_inv_l in F as (l1 & l2 & F1 & F2 & ->).
  destruct (A _ _ F1) as (es & -> & E1 & E2 & E3). destruct (B _ _ F2) as (ns & -> & E4 & E5).
  exists es, ns. repeat split; auto.
Qed.
Lemma named_split rep R (x : jsobj val) l : Forall2 (prop_image rep R) (named_items x) l ->
  exists ns, l = str_items ns /\ map fst ns = dkeys (jo_props x) /\ Forall2 (image rep R) (map snd (jo_props x)) (map snd ns).
Proof.
  unfold named_items. generalize (jo_props x) as ns. clear x. intros ns. revert l.
  induction ns as [|[k v] ns IH]; cbn [map]; intros m F; inversion F as [|? [k' v'] ? m' [E1 E2] F']; subst.
  - exists []. repeat split; constructor.
  - cbn [fst snd] in *. destruct (IH _ F') as (es' & -> & E & G). exists ((k, v') :: es'). cbn [map fst snd]. subst k'. rewrite E.
    repeat split; auto; constructor; auto.
Qed.
Lemma Forall2_Forall {A B} (P : A -> B -> Prop) (Q : A -> Prop) (S : B -> Prop) l m : (forall x y, P x y -> Q x -> S y) ->
  Forall2 P l m -> Forall Q l -> Forall S m.
Proof. intros I F. induction F; intros G; inversion G; subst; constructor; eauto. Qed.
Lemma Forall2_len {A B} (P : A -> B -> Prop) l m : Forall2 P l m -> length l = length m.
Proof. induction 1; cbn; auto. Qed.
Lemma entries_sorted {T} (l : list (option T)) : forall i, StronglySorted Z.lt (map fst (entries_from i l)) /\
  Forall (fun k => (i <= k < i + Z.of_nat (length l))%Z) (map fst (entries_from i l)).
Proof.
  induction l as [|[v|] l IH]; intros i; cbn [entries_from map fst].
  - split; constructor.
  - destruct (IH (i + 1)%Z) as [A B]. split.
    + constructor; auto. eapply Forall_impl; [|exact B]. intros k Hk. cbn beta in Hk. lia.
    + constructor; [cbn [length]; lia|]. eapply Forall_impl; [|exact B]. intros k Hk. cbn beta in Hk. cbn [length]. lia.
  - destruct (IH (i + 1)%Z) as [A B]. split; auto. eapply Forall_impl; [|exact B]. intros k Hk. cbn beta in Hk. cbn [length]. lia.
Qed.
Lemma of_elem_of v : of_elem (elem_of v) = v.
Proof. destruct v; auto. Qed.
Lemma field_utf8 m st : build_field (utf8_field m) st = (m, st).
Proof. destruct m; reflexivity. Qed.
Lemma proto_known n : proto_name (ename_tag n) = ename_str n.
Proof. destruct n; reflexivity. Qed.
Lemma attach_build dcfg wv w w' st k st1 y : build dcfg w st = Ok (VRef k, st1) -> attach wv w w' -> nth_error (ds_heap st1) k = Some y ->
  is_buffer y = true -> build dcfg w' st = build_view k (Some wv) st1.
Proof.
  intros B A E IB. destruct A.
  - cbn [build] in *. destruct (build_buf b st) as [i st0]. cbn [build_view] in B. injection B as -> ->. reflexivity.
  - cbn [build] in *. destruct (id <? lenN (ds_log st)); [|discriminate]. destruct (nth_error (ds_log st) (N.to_nat id)) as [u|]; [|discriminate].
    destruct u; try discriminate. injection B as -> ->. rewrite E, IB. reflexivity.
Qed.

Section Trip.
Variable H : heap.
Variable cfg : ecfg.
Variable dcfg : ModelDecode.dcfg.
Variables refs node : bool.
Variable root : val.
Variable rep : val -> val -> Prop.
Notation occ := (occurs H root).
Hypothesis WF : wf_graph H cfg root.
Hypothesis AB : able H cfg dcfg node rep root.
Hypothesis AL : refs = true -> aligned H root.
Hypothesis DC : forall t, c_const dcfg t = default_const t.
Hypothesis DH : node = true -> c_host dcfg = true.
Hypothesis RepRefl : forall v, rep v v.
Hypothesis RepOcc : forall v v0, occ v -> rep v v0 -> occ v0.
Hypothesis RepPrim : forall v v0, rep v v0 -> simple_key v -> v0 = v.
Hypothesis RepHole : forall v, rep v VHole -> v = VHole.
(** The memory of a buffer is that of the buffer written in its place. *)
Hypothesis RepBuf : forall b v0 y, rep (VRef b) v0 -> nth_error H b = Some y -> buffer_like y ->
  exists b0 y0, v0 = VRef b0 /\ nth_error H b0 = Some y0 /\ buffer_like y0 /\
    (y0 = y \/ exists j j0, y = OBuffer j /\ y0 = OBuffer j0 /\ jb_data j0 = jb_data j /\ jb_max j0 = jb_max j /\ jb_resizable j0 = jb_resizable j).

Notation img R := (image rep (rel R)).
Notation inv := (inv H cfg dcfg refs node root rep).
Notation objimg R h := (object_image H h cfg dcfg node rep (rel R)).
Definition direct (R : list (nat * val)) (v v' : val) : Prop := match v with VRef o => rel R o v' | _ => leaf_image v v' end.
Lemma leaf_direct R v v' : leaf_image v v' -> direct R v v'.
Proof. intros L. destruct v; auto. inversion L. Qed.

Definition good_key (k : val) : Prop := match k with VStr _ => True | VInt z => (0 <= z < 2 ^ 32 - 1)%Z | _ => False end.
Lemma good_simple k : good_key k -> simple_key k. Proof. destruct k; cbn; auto. Qed.
Lemma key_build open k r w r' st : describes H cfg refs node rep open true k r w r' -> good_key k -> build dcfg w st = Ok (k, st) /\ r' = r.
Proof.
  intros D G. inversion D as [? ? ? v0 ? ? ? Rp W]; subst. apply RepPrim in Rp; [|apply good_simple; auto]. subst v0.
  destruct k; try contradiction.
  - inversion W; subst. split; auto. cbn [good_key] in G. match goal with X : int_wire _ _ _ |- _ => rename X into IW end.
    inversion IW; subst; try lia. cbn [build]. rewrite Z2N.id by lia. auto.
  - inversion W; subst. split; auto.
Qed.
Lemma int_image z w st : int_wire false z w -> exists v', build dcfg w st = Ok (v', st) /\ leaf_image (VInt z) v'.
Proof.
  intros IW. inversion IW; subst; try discriminate; cbn [build]; eexists; (split; [reflexivity|]).
  - rewrite Z2N.id by lia. apply li_int. lia.
  - apply li_int. lia.
  - apply li_double; auto.
  - apply li_int. lia.
Qed.
Lemma const_image t v st : c_const dcfg t = v -> build dcfg (WConst t) st = Ok (v, st).
Proof. intros <-. reflexivity. Qed.

Lemma log_rec R st r P o u st' : inv R st r P -> ds_log st' = ds_log st ++ [u] ->
  refs = true -> (ds_log st' = ds_log st ++ [u] /\ r ++ [o] = r ++ [o]) \/ (ds_log st' = ds_log st /\ r ++ [o] = r /\ node = true).
Proof. intros. left. auto. Qed.

(** A finished object in a new location. *)
Lemma inv_alloc R st r r' P o x c (logged : bool) : inv R st r P -> occ (VRef o) -> nth_error H o = Some x -> not_prim x ->
  (refs = true -> logged = true /\ r' = r ++ [o]) ->
  let i := length (ds_heap st) in
  (forall h, (forall j, (j < i)%nat -> ~ In j P -> nth_error h j = nth_error (ds_heap st) j) ->
     cell_image H h cfg dcfg node rep (rel (R ++ [(o, VRef i)])) x c) ->
  inv (R ++ [(o, VRef i)]) (mkD (ds_heap st ++ [c]) (if logged then ds_log st ++ [VRef i] else ds_log st)) r' P.
Proof.
  intros I O Hx NP HL i HC.
  assert (NiP : ~ In i P) by (intros Q; pose proof (i_lt _ _ _ _ _ _ _ _ _ _ _ I i (or_intror Q)); unfold i in *; lia).
  eapply inv_add; eauto.
  - eexists. reflexivity.
  - intros Rt. destruct (HL Rt) as [-> ->]. left. auto.
  - intros j [= <-]. cbn [ds_heap]. rewrite app_length. cbn. unfold i. lia.
  - intros h' A. cbn [ds_heap] in A.
    assert (E : nth_error h' i = Some c).
    { rewrite A; auto; [|rewrite app_length; cbn; unfold i; lia]. unfold i. rewrite nth_error_app2 by lia. rewrite Nat.sub_diag. auto. }
    assert (C : cell_image H h' cfg dcfg node rep (rel (R ++ [(o, VRef i)])) x c).
    { apply HC. intros j L N. rewrite A; auto; [apply nth_error_app1; auto|rewrite app_length; unfold i in L; lia]. }
    unfold object_image. destruct x; try contradiction; exists i, c; auto.
Qed.
Lemma in_snoc (R : list (nat * val)) p : In p (R ++ [p]).
Proof. apply in_app_iff. right. left. auto. Qed.

Lemma forall2_img_mono R R' l l' : incl R R' -> Forall2 (img R) l l' -> Forall2 (img R') l l'.
Proof. intros I. apply Forall2_weaken. intros a b. apply image_mono. apply incl_rel. auto. Qed.
Lemma forall2_pair_mono R R' l l' : incl R R' -> Forall2 (pair_image rep (rel R)) l l' -> Forall2 (pair_image rep (rel R')) l l'.
Proof. intros I. apply Forall2_weaken. intros a b [A B]. split; eapply image_mono; try apply incl_rel; eauto. Qed.
Lemma forall2_prop_mono R R' l l' : incl R R' -> Forall2 (prop_image rep (rel R)) l l' -> Forall2 (prop_image rep (rel R')) l l'.
Proof. intros I. apply Forall2_weaken. intros a b [A B]. split; auto. eapply image_mono; try apply incl_rel; eauto. Qed.
Lemma pair_keys R l l' : Forall2 (pair_image rep (rel R)) l l' -> Forall2 (img R) (map fst l) (map fst l').
Proof. induction 1 as [|? ? ? ? [A _]]; constructor; auto. Qed.
Lemma map_snd_fst {K A B} (m : list (K * (A * B))) : map fst (map snd m) = map (fun p => fst (snd p)) m.
Proof. rewrite map_map. reflexivity. Qed.
Lemma solids R st r P l l' : inv R st r P -> Forall2 (img R) l l' -> Forall (fun v => v <> VHole) l -> Forall solid l'.
Proof. intros I. apply Forall2_Forall. intros x y M N. eapply solid_image; eauto. Qed.
Lemma solid_snd {K} (l : list (K * val)) : Forall solid (map snd l) -> Forall (fun p => solid (snd p)) l.
Proof. apply Forall_map. Qed.
Lemma own_good (x : jsobj val) : wf_jsobj x -> Forall good_key (map fst (own_items x)).
Proof.
  intros (_ & _ & _ & _ & _ & L). unfold own_items. rewrite map_app. apply Forall_app. split.
  - rewrite map_map. cbn [fst]. destruct (entries_sorted (aabs (jo_arr x)) 0) as [_ F]. rewrite Forall_map in F. rewrite Forall_map.
    eapply Forall_impl; [|exact F]. intros [k v] B. cbn [fst good_key] in *. unfold lenN in L. lia.
  - unfold named_items. rewrite map_map. apply Forall_map. apply Forall_forall. intros; exact Logic.I.
Qed.
Lemma named_good (x : jsobj val) : Forall good_key (map fst (named_items x)).
Proof. unfold named_items. rewrite map_map. apply Forall_map. apply Forall_forall. intros; exact Logic.I. Qed.
Lemma entry_solid (l : list (option val)) : forall i, Forall (fun e => e <> Some VHole) l -> Forall (fun v => v <> VHole) (map snd (entries_from i l)).
Proof. induction l as [|[v|] l IH]; intros i F; inversion F; subst; cbn [entries_from map snd]; auto. constructor; auto. congruence. Qed.
Lemma entry_hole (l : list (option val)) : forall i, In (Some VHole) l -> ~ Forall (fun v => v <> VHole) (map snd (entries_from i l)).
Proof.
  induction l as [|[v|] l IH]; intros i X F; [destruct X| |]; cbn [entries_from map snd] in F.
  - inversion F; subst. destruct X as [[= ->]|X]; [congruence|]. eapply IH; eauto.
  - destruct X as [X|X]; [discriminate|]. eapply IH; eauto.
Qed.
Lemma elements_entries R (l m : list (option val)) : length l = length m ->
  Forall2 (fun a b => fst a = fst b /\ img R (snd a) (snd b)) (entries_from 0 l) (entries_from 0 m) -> Forall2 (img R) (map of_elem l) (map of_elem m).
Proof.
  intros L F. assert (G : Forall2 (fun a b => img R (of_elem a) (of_elem b)) l m).
  { eapply (entries_elements (img R)); eauto. exists VHole. split; [apply RepRefl|constructor]. }
  clear -G. induction G; cbn [map]; constructor; auto.
Qed.

Definition Done (v : val) (R : list (nat * val)) (r' P : list nat) (b : result (val * dstate)) : Prop :=
  exists v' st' R', b = Ok (v', st') /\ direct R' v v' /\ incl R R' /\ inv R' st' r' P.
Lemma done_leaf v v' R st r P : inv R st r P -> leaf_image v v' -> Done v R r P (Ok (v', st)).
Proof. intros I L. exists v', st, R. split; auto. split; [apply leaf_direct; auto|]. split; auto. apply incl_refl. Qed.
Lemma done_close R R1 st2 r' P o x i c : incl (R ++ [(o, VRef i)]) R1 -> inv R1 st2 r' (i :: P) -> ~ In i P -> nth_error H o = Some x ->
  not_prim x -> (forall h, cell_image H h cfg dcfg node rep (rel R1) x c) -> Done (VRef o) R r' P (Ok (VRef i, store i c st2)).
Proof.
  intros IC I NP Hx NPr HC. assert (Q : In (o, VRef i) R1) by (apply IC, in_snoc).
  exists (VRef i), (store i c st2), R1. split; auto. split; [exact Q|]. split.
  - intros p Ip. apply IC. apply in_app_iff. auto.
  - eapply inv_finish; eauto.
Qed.
Lemma done_alloc R st r r' P o x c (logged : bool) : inv R st r P -> occ (VRef o) -> nth_error H o = Some x -> not_prim x ->
  (refs = true -> logged = true /\ r' = r ++ [o]) ->
  let i := length (ds_heap st) in
  (forall h, (forall j, (j < i)%nat -> ~ In j P -> nth_error h j = nth_error (ds_heap st) j) ->
     cell_image H h cfg dcfg node rep (rel (R ++ [(o, VRef i)])) x c) ->
  Done (VRef o) R r' P (Ok (VRef i, mkD (ds_heap st ++ [c]) (if logged then ds_log st ++ [VRef i] else ds_log st))).
Proof.
  intros I O Hx NP HL i HC. eexists _, _, _. split; [reflexivity|]. split; [|split; [|eapply inv_alloc; eauto]].
  - apply in_snoc.
  - apply incl_snoc.
Qed.

Definition Pd (open : list nat) (key : bool) (v : val) (r : list nat) (w : wval) (r' : list nat) : Prop :=
  key = false -> occ v -> forall R st P, inv R st r P ->
  exists v' st' R', build dcfg w st = Ok (v', st') /\ img R' v v' /\ incl R R' /\ inv R' st' r' P.
Definition Pw (open : list nat) (key : bool) (v : val) (r : list nat) (w : wval) (r' : list nat) : Prop :=
  key = false -> occ v -> forall R st P, inv R st r P -> Done v R r' P (build dcfg w st).
Definition Pv (open : list nat) (l : list val) (r : list nat) (ws : wvals) (r' : list nat) : Prop :=
  Forall occ l -> forall R st P, inv R st r P ->
  exists l' st' R', (forall acc, build_members dcfg ws acc st = do a <- add_all acc l'; Ok (a, st')) /\
    (forall acc i, build_elems dcfg ws i acc st = do a <- elems_all dcfg acc i l'; Ok (a, st')) /\
    Forall2 (img R') l l' /\ incl R R' /\ inv R' st' r' P.
Definition Pp (open : list nat) (key : bool) (l : list (val * val)) (r : list nat) (ps : wpairs) (r' : list nat) : Prop :=
  (key = true -> Forall good_key (map fst l)) -> Forall occ (flat l) -> forall R st P, inv R st r P ->
  exists l' st' R', (forall acc, build_pairs dcfg ps acc st = do a <- put_all dcfg acc l'; Ok (a, st')) /\
    Forall2 ((if key then prop_image else pair_image) rep (rel R')) l l' /\ incl R R' /\ inv R' st' r' P.

Lemma prim_done o t x r w R st P : nth_error H o = Some (OPrim t x) -> prim_wire t x w -> occ (VRef o) -> inv R st r P ->
  Done (VRef o) R (r ++ [o]) P (build dcfg w st).
Proof.
  intros Hx PW O I. pose proof (wf_at H cfg root WF o _ O Hx) as W. cbn [wf_obj] in W.
  assert (G : forall u, unwrapped t x u -> ref_free u -> Done (VRef o) R (r ++ [o]) P (Ok (u, record u st))).
  { intros u U F. eexists _, _, _. split; [reflexivity|]. split; [apply in_snoc|]. split; [apply incl_snoc|].
    eapply inv_add; eauto.
    - exists []. rewrite app_nil_r. reflexivity.
    - intros j ->. contradiction. }
  destruct PW; cbn [build build_str stag_eqb].
  - apply (G (VStr s)); [apply uw_same; discriminate|exact Logic.I].
  - destruct b; [|contradiction]. apply G; [apply uw_same; discriminate|exact Logic.I].
  - destruct b; [contradiction|]. apply G; [apply uw_same; discriminate|exact Logic.I].
  - apply G; [apply uw_same; discriminate|exact Logic.I].
  - apply G; [apply uw_same; intros _ z; discriminate|exact Logic.I].
  - apply G; [apply uw_number; auto|exact Logic.I].
Qed.
Lemma buffer_cell bf st : wf_obj H cfg (OBuffer bf) ->
  build_buf (if keeps_resizable cfg bf then BufResizable (jsbuf_view bf) (Z.to_N (jb_max bf)) else BufPlain (jsbuf_view bf)) st =
  alloc_rec (OBuffer (if keeps_resizable cfg bf then mkBuf (jb_data bf) (jb_max bf) true false
     else mkBuf (jb_data bf) (zlen (jb_data bf)) false false)) st.
Proof.
  intros (_ & L & _). rewrite jsbuf_view_all by auto. destruct (keeps_resizable cfg bf); cbn [build_buf]; auto.
  rewrite Z2N.id; auto. pose proof (zlen_nonneg (jb_data bf)). lia.
Qed.

Lemma seq_elements (l l' : list val) R a : Forall2 (img R) l l' -> aabs a = map elem_of l' -> Forall2 (img R) l (elements (mkObj a [])).
Proof.
  intros F E. unfold elements. cbn [jo_arr]. rewrite E, map_map. erewrite map_ext; [|intros; apply of_elem_of]. rewrite map_id. auto.
Qed.

(** The memory behind a decoded buffer. *)
Lemma decoded_buffer R st r P b k y : inv R st r P -> img R (VRef b) k -> nth_error H b = Some y -> buffer_like y ->
  forall d, bk_data (backing_of H b) = Some d ->
  exists b0 j bf, rep (VRef b) (VRef b0) /\ In (b0, VRef j) R /\ k = VRef j /\ ~ In j P /\ (j < length (ds_heap st))%nat /\
    nth_error (ds_heap st) j = Some (OBuffer bf) /\ jsbuf_view bf = d /\
    (forall bf0, y = OBuffer bf0 -> keeps_resizable cfg bf0 = true -> jb_resizable bf = true).
Proof.
  intros I (v0 & Rp & M) Hy BL d HD. destruct (RepBuf _ _ _ Rp Hy BL) as (b0 & y0 & -> & Hy0 & BL0 & Tw).
  destruct (i_all _ _ _ _ _ _ _ _ _ _ _ I _ _ M) as (x & O & Hx & C). assert (x = y0) by congruence. subst x.
  destruct C as [(j & _ & _ & NB & _)|[C1 C2]]; [contradiction|]. specialize (C2 _ (agree_refl _ _)).
  pose proof (wf_at H cfg root WF _ _ O Hx) as W0.
  assert (Q : exists j bf, k = VRef j /\ nth_error (ds_heap st) j = Some (OBuffer bf) /\ jsbuf_view bf = d /\
    (forall bf0, y = OBuffer bf0 -> keeps_resizable cfg bf0 = true -> jb_resizable bf = true)).
  { unfold object_image in C2. unfold backing_of in HD. rewrite Hy in HD.
    destruct y0; try contradiction; destruct C2 as (j & c & -> & E & CI); exists j; cbn [cell_image] in CI; destruct c; try contradiction.
    - (* a JSArrayBuffer *)
      exists b2. split; auto. split; auto. destruct W0 as (_ & L & _).
      assert (TD : exists j0, y = OBuffer j0 /\ jb_data b1 = jb_data j0 /\ jb_max b1 = jb_max j0 /\ jb_resizable b1 = jb_resizable j0).
      { destruct Tw as [<-|(j1 & j2 & -> & E2 & T)]; [eauto|]. injection E2 as <-. exists j1. auto. }
      destruct TD as (j0 & -> & T1 & T2 & T3). cbn [bk_data] in HD. injection HD as <-.
      rewrite (jsbuf_view_all j0) by (rewrite <- T1, <- T2; auto). split.
      + subst b2. rewrite jsbuf_view_all; destruct (keeps_resizable cfg b1); cbn [jb_data jb_max]; auto; lia.
      + intros bf0 [= <-] K. subst b2. unfold keeps_resizable in *. rewrite T3, K. auto.
    - destruct Tw as [<-|(? & ? & _ & Q & _)]; [discriminate HD|discriminate].
    - destruct Tw as [<-|(? & ? & _ & Q & _)]; [discriminate HD|discriminate].
    - destruct Tw as [<-|(? & ? & _ & Q & _)]; [|discriminate]. cbn [bk_data] in HD. injection HD as <-. exists b1. split; auto. split; auto.
      split; [|discriminate]. rewrite CI. apply jsbuf_view_all. cbn. lia.
    - destruct Tw as [<-|(? & ? & _ & Q & _)]; [|discriminate]. cbn [bk_data] in HD. injection HD as <-. exists b1. split; auto. split; auto.
      split; [|discriminate]. rewrite CI. apply jsbuf_view_all. cbn. lia. }
  destruct Q as (j & bf & -> & E & D & K). exists b0, j, bf. split; auto. split; auto. split; auto. split; [eapply C1; eauto|].
  split; auto. apply (i_lt _ _ _ _ _ _ _ _ _ _ _ I). left. eapply in_locs; eauto.
Qed.

Lemma childs_occ o x l : occ (VRef o) -> nth_error H o = Some x -> incl l (children x) -> Forall occ l.
Proof. intros O Hx I. apply Forall_forall. intros v Iv. eapply occ_child; eauto. Qed.
Lemma view_done o b v r w r1 w' R st P open : nth_error H o = Some (OView b v) -> node = false \/ node_code (vw_tag v) = None ->
  Pd open false (VRef b) r w r1 -> attach (wview_of (backing_of H b) v) w w' -> occ (VRef o) -> inv R st r P ->
  Done (VRef o) R (r1 ++ [o]) P (build dcfg w' st).
Proof.
  intros Hx HN IH A O I. assert (Ob : occ (VRef b)) by (eapply occ_child; eauto; left; auto).
  destruct (IH eq_refl Ob R st P I) as (k & st1 & R1 & B & M & IC & I1).
  pose proof (wf_at H cfg root WF o _ O Hx) as (VO & y & Hy & BL).
  pose proof (AB o _ O Hx) as AV. cbn [able_obj] in AV.
  assert (HN' : (if node then node_code (vw_tag v) else None) = None) by (destruct HN as [-> | ->]; auto; destruct node; auto).
  rewrite HN' in AV. destruct AV as [(d & HD & TR) IR].
  destruct (decoded_buffer _ _ _ _ _ _ _ I1 M Hy BL d HD) as (b0 & j & bf & Rp & Mj & -> & NjP & Lj & Ej & JV & KR).
  rewrite (attach_build _ _ _ _ _ _ _ _ B A Ej eq_refl).
  assert (BK : forall h, nth_error h j = Some (OBuffer bf) -> backing_of h j = BkBuffer bf).
  { intros h E. unfold backing_of. rewrite E. auto. }
  destruct (window_again (backing_of H b) (BkBuffer bf) v d false VO HD) as (v' & F & T1 & T2 & T3 & T4 & T5); auto.
  { cbn [bk_data]. rewrite JV. auto. }
  { intros T. destruct (TR T) as [(bf0 & E & K)|E]; auto. left. cbn [bk_resizable]. apply (KR bf0); auto. congruence. }
  cbn [build_view wview_of wv_tag wv_off wv_len wv_flags]. rewrite BK by auto.
  assert (N0 : (0 <= view_byte_offset (backing_of H b) v)%Z).
  { unfold view_byte_offset. rewrite IR. destruct VO. pose proof (isize_pos (vw_tag v)). nia. }
  rewrite Z2N.id by auto. rewrite Z2N.id by apply zlen_nonneg.
  assert (OD : N.odd ((if bk_resizable (backing_of H b) then 2 else 0) + (if view_tracking (backing_of H b) v then 1 else 0)) = view_tracking (backing_of H b) v).
  { destruct (bk_resizable (backing_of H b)), (view_tracking (backing_of H b) v); reflexivity. }
  rewrite OD, F. cbn [bind alloc_rec alloc]; unfold ModelDecode.record; cbn [ds_heap ds_log].
  assert (G : Done (VRef o) R1 (r1 ++ [o]) P (Ok (VRef (length (ds_heap st1)), mkD (ds_heap st1 ++ [OView j v']) (ds_log st1 ++ [VRef (length (ds_heap st1))])))).
  { eapply (done_alloc R1 st1 r1 (r1 ++ [o]) P o _ (OView j v') true); eauto; [exact Logic.I|].
    intros h A'. cbn [cell_image]. rewrite HN'. unfold same_window.
    assert (BKh : backing_of h j = BkBuffer bf) by (apply BK; rewrite A'; auto). rewrite BKh.
    split; [|auto]. exists (VRef b0). split; auto. apply in_app_iff. left. auto. }
  destruct G as (u & st' & R' & E & Dr & IC' & I'). exists u, st', R'. split; auto. split; auto. split; auto. eapply incl_tran; eauto.
Qed.
Lemma node_done o b v code r R st P : nth_error H o = Some (OView b v) -> node = true -> node_code (vw_tag v) = Some code ->
  occ (VRef o) -> inv R st r P -> Done (VRef o) R r P (build dcfg (WHost code (snd (view_memory (backing_of H b) v))) st).
Proof.
  intros Hx Nd NC O I. pose proof (wf_at H cfg root WF o _ O Hx) as (VO & _). cbn [build]. rewrite (DH Nd), (node_formats _ _ NC).
  cbn [alloc ds_heap ds_log]. set (d := snd (view_memory (backing_of H b) v)).
  assert (MI : (zlen d mod isize (vw_tag v) = 0)%Z).
  { unfold d. destruct (view_memory (backing_of H b) v) as [f m] eqn:E. cbn [snd]. eapply view_memory_items; eauto. }
  set (i := length (ds_heap st)).
  assert (Li : length (ds_heap st ++ [OBuffer (mkBuf d (zlen d) false false)]) = S i) by (rewrite app_length; cbn; unfold i; lia).
  rewrite Li.
  assert (Lt : forall j, In j P -> (j < i)%nat) by (intros j Q; apply (i_lt _ _ _ _ _ _ _ _ _ _ _ I); auto).
  eexists _, _, _. split; [reflexivity|]. split; [apply in_snoc|]. split; [apply incl_snoc|].
  eapply inv_add; eauto; cbn [ds_heap ds_log].
  - eexists. rewrite <- app_assoc. reflexivity.
  - intros j [= <-]. rewrite app_length, Li. cbn. fold i. lia.
  - intros h' A. cbn [object_image]. exists (S i), (OView i (mkView (vw_tag v) 0 None false)). split; auto.
    assert (E1 : nth_error h' (S i) = Some (OView i (mkView (vw_tag v) 0 None false))).
    { rewrite A; [|rewrite app_length, Li; cbn; lia|intros Q; apply Lt in Q; lia]. rewrite nth_error_app2 by lia. rewrite Li, Nat.sub_diag. auto. }
    assert (E2 : nth_error h' i = Some (OBuffer (mkBuf d (zlen d) false false))).
    { rewrite A; [|rewrite app_length, Li; cbn; lia|intros Q; apply Lt in Q; lia]. rewrite nth_error_app1 by lia.
      rewrite nth_error_app2 by (unfold i; lia). unfold i. rewrite Nat.sub_diag. auto. }
    split; auto. cbn [cell_image]. rewrite Nd, NC. unfold own_copy. cbn [vw_tag vw_offset]. split; auto. split; auto. split.
    + exists (mkBuf d (zlen d) false false). split; auto. reflexivity.
    + unfold backing_of at 1. rewrite E2. rewrite whole_view by auto. reflexivity.
Qed.

Ltac done_cell := 
  match goal with |- Done _ _ _ _ (Ok (VRef (length (ds_heap ?st)), mkD (ds_heap ?st ++ [?c]) (ds_log ?st ++ _))) =>
    eapply (fun R r r' P o x => done_alloc R st r r' P o x c true) end.
Ltac done_anon := 
  match goal with |- Done _ _ _ _ (Ok (VRef (length (ds_heap ?st)), mkD (ds_heap ?st ++ [?c]) (ds_log ?st))) =>
    eapply (fun R r r' P o x => done_alloc R st r r' P o x c false) end.
Ltac start := let Hk := fresh "Hk" in intros Hk O R st P I; subst.
Theorem trip :
  (forall open key v r w r', describes H cfg refs node rep open key v r w r' -> Pd open key v r w r') /\
  (forall open key v r w r', writes H cfg refs node rep open key v r w r' -> Pw open key v r w r') /\
  (forall open l r ws r', wvals_of H cfg refs node rep open l r ws r' -> Pv open l r ws r') /\
  (forall open key l r ps r', wpairs_of H cfg refs node rep open key l r ps r' -> Pp open key l r ps r').
Proof.
  apply describes_mutind.
  - (* a value and the one written in its place *)
    intros open key v v0 r w r' Rp _ IH Hk O R st P I. destruct (IH Hk (RepOcc _ _ O Rp) R st P I) as (v' & st' & R' & B & D & IC & I').
    exists v', st', R'. split; auto. split; auto. exists v0. split; auto.
  - (* a reference *)
    intros open key o r sid Rt Hs NO Hk O R st P I. destruct (i_log _ _ _ _ _ _ _ _ _ _ _ I Rt) as [L IC].
    assert (Ls : (sid < length r)%nat) by (apply nth_error_Some; congruence).
    destruct (nth_error (ds_log st) sid) as [u|] eqn:Eu; [|apply nth_error_None in Eu; lia].
    cbn [build]. assert (Lt : (N.of_nat sid <? lenN (ds_log st)) = true) by (unfold lenN; lia). rewrite Lt, Nat2N.id, Eu.
    assert (Q : In (o, u) R).
    { apply IC. clear -Hs Eu. revert r Hs Eu. generalize (ds_log st) as l. induction sid; intros [|y l] [|x r] A B; try discriminate; cbn in *.
      - injection A as ->. injection B as ->. auto.
      - right. eauto. }
    assert (E : match u with VRef _ => Ok (u, st) | _ => Ok (u, st) end = Ok (u, st)) by (destruct u; auto).
    exists u, st, R. split; [destruct u; reflexivity|]. split; auto. split; auto. apply incl_refl.
  - intros open key r. start. rewrite (const_image _ VHole); [apply done_leaf; auto; constructor|apply DC].
  - intros open key r. start. rewrite (const_image _ VUndef); [apply done_leaf; auto; constructor|apply DC].
  - intros open key r. start. rewrite (const_image _ VNone); [apply done_leaf; auto; constructor|apply DC].
  - intros open key b r. start. rewrite (const_image _ (VBool b)); [apply done_leaf; auto; constructor|rewrite DC; destruct b; auto].
  - intros open key z r w IW Hk. subst key. intros O R st P I. destruct (int_image z w st IW) as (v' & -> & L). apply done_leaf; auto.
  - intros open key b r. start. apply done_leaf; auto; constructor.
  - intros open key b r. start. apply done_leaf; auto; constructor.
  - intros open key o t x r w Hx _ PW Hk O R st P I. eapply prim_done; eauto.
  - (* regexp *)
    intros open key o s f r Hx _ Hk O R st P I. change (build dcfg (WRegExp kUtf8String s (N.land f 0x1FF)) st) with
      (do o <- regexp_new s (N.land f 0x1FF); let '(i, st) := alloc_rec o st in Ok (VRef i, st)).
    assert (Rf : refs = true -> False) by (intros Rt; exact (AL Rt o _ O Hx)).
    pose proof (wf_at H cfg root WF o _ O Hx) as (_ & y & E & Ey). subst y.
    assert (E2 : regexp_new s (N.land f 0x1FF) = Ok (ORegExp s (N.land f 0x1FF))).
    { unfold regexp_new in *. rewrite <- !N.land_assoc. cbn [N.land] in *. change (N.land 511 16) with 16. change (N.land 511 256) with 256.
      destruct (negb (N.land f 16 =? 0) && negb (N.land f 256 =? 0)); [discriminate|]. injection E as E. rewrite E. auto. }
    rewrite E2. cbn [bind alloc_rec alloc]; unfold ModelDecode.record; cbn [ds_heap ds_log]. 
 done_cell; eauto; [exact Logic.I|tauto|].
    intros h _. cbn [cell_image]. auto.
  - (* error *)
    intros open key o n m s r Hx _ Hk O R st P I. cbn [build]. rewrite !field_utf8.
    assert (Rf : refs = true -> False) by (intros Rt; apply (AL Rt o _ O Hx); reflexivity).
    cbn [bind alloc_rec alloc]; unfold ModelDecode.record; cbn [ds_heap ds_log]. done_cell; eauto; [exact Logic.I|tauto|].
    intros h _. cbn [cell_image]. rewrite proto_known. repeat split; auto. exists VNone. split; auto. constructor.
  - (* error with a cause *)
    intros open key o n m s c r w r' Hx NC _ _ IH Hk O R st P I. rewrite build_errorc. rewrite !field_utf8.
    cbn [bind alloc_rec alloc]; unfold ModelDecode.record; cbn [ds_heap ds_log].
    destruct (inv_pending H cfg dcfg refs node root rep R st r P o _ (OError (proto_name (ename_tag (for_error_name n))) (message_of m) s VNone) I O Hx) as [I1 NP]; [cbn; auto|exact Logic.I|].
    assert (Oc : occ c) by (eapply occ_child; eauto; cbn [children]; destruct c; try congruence; left; auto).
    destruct (IH eq_refl Oc _ _ _ I1) as (c' & st2 & R2 & B & M & IC & I2). rewrite B. cbn [bind build_field].
    eapply done_close; eauto; [exact Logic.I|]. intros h. cbn [cell_image]. rewrite proto_known. repeat split; auto. destruct s; auto.
  - (* date *)
    intros open key o d b r Hx _ ET Hk O R st P I. cbn [build]. destruct (AB o _ O Hx b ET) as [d' Ed]. rewrite Ed.
    cbn [bind alloc_rec alloc]; unfold ModelDecode.record; cbn [ds_heap ds_log]. done_cell; eauto; [exact Logic.I|].
    intros h _. cbn [cell_image]. eauto.
  - (* shared object *)
    intros open key o id r Hx _ Hk O R st P I. cbn [build alloc_rec alloc]; unfold ModelDecode.record; cbn [ds_heap ds_log]. done_cell; eauto; [exact Logic.I|].
    intros h _. reflexivity.
  - (* object *)
    intros open key o x r ps r' Hx _ _ IH Hk O R st P I. rewrite build_object. cbn [alloc_rec alloc]; unfold ModelDecode.record; cbn [ds_heap ds_log].
    destruct (inv_pending H cfg dcfg refs node root rep R st r P o _ (OObject jo_empty) I O Hx) as [I1 NP]; [cbn; auto|exact Logic.I|].
    pose proof (wf_at H cfg root WF o _ O Hx) as W. cbn [wf_obj] in W. pose proof W as (W1 & W2 & W3 & W4 & W5 & W6).
    destruct (IH (fun _ => own_good x W) (childs_occ _ _ _ O Hx (incl_refl _)) _ _ _ I1) as (l' & st2 & R2 & B & M & IC & I2).
    destruct (prop_split _ _ _ _ M) as (es & ns & -> & Ke & Kn & Me & Mn & _ & _).
    destruct (entries_sorted (aabs (jo_arr x)) 0) as [So Bo].
    destruct (put_object dcfg es ns) as (y & E & Yok & Yla & Own).
    + rewrite Ke. eapply Forall_impl; [|exact Bo]. intros k Hk'. cbn beta in Hk'. unfold lenN in W6. lia.
    + rewrite Ke. exact So.
    + apply solid_snd. eapply solids; eauto. apply entry_solid. auto.
    + rewrite Kn. auto.
    + rewrite Kn. auto.
    + apply solid_snd. eapply solids; eauto. apply Forall_map. auto.
    + rewrite B, E. cbn [bind]. eapply done_close; eauto; [exact Logic.I|]. intros h. cbn [cell_image]. rewrite Own. split; [exact M|auto].
  - (* dense array *)
    intros open key o x r vs r1 ps r' Hx _ _ IHv _ IHp Hk O R st P I. rewrite build_dense. cbn [alloc_rec alloc]; unfold ModelDecode.record; cbn [ds_heap ds_log].
    destruct (inv_pending H cfg dcfg refs node root rep R st r P o _ (OArray jo_empty) I O Hx) as [I1 NP]; [cbn; auto|exact Logic.I|].
    pose proof (wf_at H cfg root WF o _ O Hx) as W. cbn [wf_obj] in W. pose proof W as (W1 & W2 & W3 & W4 & W5 & W6).
    assert (Oe : Forall occ (elements x)) by (eapply childs_occ; eauto; cbn [children]; apply incl_appl, incl_refl).
    assert (On : Forall occ (flat (named_items x))).
    { eapply childs_occ; eauto. cbn [children]. apply incl_appr. unfold own_items. rewrite RoundTrip.flat_app. apply incl_appr, incl_refl. }
    destruct (IHv Oe _ _ _ I1) as (l' & st2 & R2 & _ & Be & Me & ICe & I2).
    destruct (IHp (fun _ => named_good x) On _ _ _ I2) as (l'' & st3 & R3 & Bp & Mp & ICp & I3).
    destruct (named_split _ _ _ _ Mp) as (ns & -> & Kn & Mn).
    destruct (put_dense dcfg l' ns) as (a & E1 & Aok & Aa & E2).
    + apply Forall2_len in Me. unfold elements in Me. rewrite map_length in Me. unfold ModelArray.zlen, lenN in *. lia.
    + rewrite Kn. auto.
    + rewrite Kn. auto.
    + apply solid_snd. eapply solids; eauto. apply Forall_map. auto.
    + rewrite Be, E1. cbn [bind]. rewrite Bp, E2. cbn [bind]. eapply (done_close R R3); eauto; [eapply incl_tran; eauto|exact Logic.I|].
      intros h. cbn [cell_image]. split; [|split; [exact Mp|split; [exact Aok|]]].
      2: { cbn [jo_arr]. rewrite Aa. intros X. apply in_map_iff in X as (e & X & _). destruct e; discriminate X. }
      eapply seq_elements in Aa; [exact Aa|]. eapply forall2_img_mono; eauto.
  - (* sparse array *)
    intros open key o x r ps r' Hx _ _ IH Hk O R st P I. rewrite build_sparse. cbn [alloc_rec alloc]; unfold ModelDecode.record; cbn [ds_heap ds_log].
    destruct (inv_pending H cfg dcfg refs node root rep R st r P o _ (OArray jo_empty) I O Hx) as [I1 NP]; [cbn; auto|exact Logic.I|].
    pose proof (wf_at H cfg root WF o _ O Hx) as W. cbn [wf_obj] in W. pose proof W as (W1 & W2 & W3 & W4 & W5 & W6).
    assert (Oo : Forall occ (flat (own_items x))) by (eapply childs_occ; eauto; cbn [children]; apply incl_appr, incl_refl).
    destruct (IH (fun _ => own_good x W) Oo _ _ _ I1) as (l' & st2 & R2 & B & M & IC & I2).
    destruct (prop_split _ _ _ _ M) as (es & ns & -> & Ke & Kn & Me & Mn & Mes & Mns).
    destruct (entries_sorted (aabs (jo_arr x)) 0) as [So Bo].
    destruct (put_sparse dcfg (length (aabs (jo_arr x))) es ns) as (oo & y & E1 & E2 & Yok & Ly & Ey & Py).
    + unfold lenN in W6. lia.
    + rewrite Ke. eapply Forall_impl; [|exact Bo]. intros k Hk'. cbn beta in Hk'. lia.
    + rewrite Ke. exact So.
    + apply solid_snd. eapply solids; eauto. apply entry_solid. auto.
    + rewrite Kn. auto.
    + rewrite Kn. auto.
    + apply solid_snd. eapply solids; eauto. apply Forall_map. auto.
    + unfold lenN. rewrite E1. cbn [bind]. rewrite B, E2. cbn [bind]. eapply done_close; eauto; [exact Logic.I|]. intros h. cbn [cell_image]. split.
      * unfold elements. apply elements_entries; auto. rewrite Ey. exact Mes.
      * split; [unfold named_items at 2; rewrite Py; exact Mns|split; [exact Yok|]]. intros X.
        assert (S1 : Forall solid (map snd es)) by (eapply solids; eauto; apply entry_solid; auto). rewrite <- Ey in S1.
        exact (entry_hole _ 0%Z X S1).
  - (* map *)
    intros open key o m r ps r' Hx _ _ IH Hk O R st P I. rewrite build_map. cbn [alloc_rec alloc]; unfold ModelDecode.record; cbn [ds_heap ds_log].
    destruct (inv_pending H cfg dcfg refs node root rep R st r P o _ (OMap []) I O Hx) as [I1 NP]; [cbn; auto|exact Logic.I|].
    destruct (IH ltac:(discriminate) (childs_occ _ _ _ O Hx (incl_refl _)) _ _ _ I1) as (l' & st2 & R2 & B & M & IC & I2).
    destruct (put_map dcfg l' []) as (m' & E & _ & Em).
    + apply cinv_nil.
    + eapply images_apart; eauto; [apply pair_keys; eauto|]. rewrite map_snd_fst. exact (AB o _ O Hx).
    + intros y k [].
    + rewrite B, E. cbn [bind]. eapply done_close; eauto; [exact Logic.I|]. intros h. cbn [cell_image]. rewrite Em. exact M.
  - (* dict *)
    intros open key o l r ps r' Hx _ _ IH Hk O R st P I. rewrite build_map. cbn [alloc_rec alloc]; unfold ModelDecode.record; cbn [ds_heap ds_log].
    destruct (inv_pending H cfg dcfg refs node root rep R st r P o _ (OMap []) I O Hx) as [I1 NP]; [cbn; auto|exact Logic.I|].
    destruct (IH ltac:(discriminate) (childs_occ _ _ _ O Hx (incl_refl _)) _ _ _ I1) as (l' & st2 & R2 & B & M & IC & I2).
    destruct (put_map dcfg l' []) as (m' & E & _ & Em).
    + apply cinv_nil.
    + eapply images_apart; eauto; [apply pair_keys; eauto|]. exact (AB o _ O Hx).
    + intros y k [].
    + rewrite B, E. cbn [bind]. eapply done_close; eauto; [exact Logic.I|]. intros h. cbn [cell_image]. rewrite Em. exact M.
  - (* set *)
    intros open key o m r vs r' Hx _ _ IH Hk O R st P I. rewrite build_set. cbn [alloc_rec alloc]; unfold ModelDecode.record; cbn [ds_heap ds_log].
    destruct (inv_pending H cfg dcfg refs node root rep R st r P o _ (OSet []) I O Hx) as [I1 NP]; [cbn; auto|exact Logic.I|].
    destruct (IH (childs_occ _ _ _ O Hx (incl_refl _)) _ _ _ I1) as (l' & st2 & R2 & B & _ & M & IC & I2).
    destruct (put_set l' []) as (m' & E & _ & Em).
    + apply cinv_nil.
    + eapply images_apart; eauto. exact (AB o _ O Hx).
    + intros y k [].
    + rewrite B, E. cbn [bind]. eapply done_close; eauto; [exact Logic.I|]. intros h. cbn [cell_image]. rewrite Em. exact M.
  - (* Python set *)
    intros open key o l r vs r' Hx _ _ IH Hk O R st P I. rewrite build_set. cbn [alloc_rec alloc]; unfold ModelDecode.record; cbn [ds_heap ds_log].
    destruct (inv_pending H cfg dcfg refs node root rep R st r P o _ (OSet []) I O Hx) as [I1 NP]; [cbn; auto|exact Logic.I|].
    destruct (IH (childs_occ _ _ _ O Hx (incl_refl _)) _ _ _ I1) as (l' & st2 & R2 & B & _ & M & IC & I2).
    destruct (put_set l' []) as (m' & E & _ & Em).
    + apply cinv_nil.
    + eapply images_apart; eauto. exact (AB o _ O Hx).
    + intros y k [].
    + rewrite B, E. cbn [bind]. eapply done_close; eauto; [exact Logic.I|]. intros h. cbn [cell_image]. rewrite Em. exact M.
  - (* other collection *)
    intros open key o t l r vs r' Hx _ _ IH Hk O R st P I. rewrite build_dense. cbn [alloc_rec alloc]; unfold ModelDecode.record; cbn [ds_heap ds_log].
    destruct (inv_pending H cfg dcfg refs node root rep R st r P o _ (OArray jo_empty) I O Hx) as [I1 NP]; [cbn; auto|exact Logic.I|].
    destruct (IH (childs_occ _ _ _ O Hx (incl_refl _)) _ _ _ I1) as (l' & st2 & R2 & _ & B & M & IC & I2).
    destruct (put_dense dcfg l' []) as (a & E1 & Aok & Aa & E2).
    + pose proof (AB o _ O Hx) as La. cbn [able_obj] in La. apply Forall2_len in M. unfold ModelArray.zlen, lenN in *. lia.
    + constructor.
    + constructor.
    + constructor.
    + rewrite B, E1. cbn [bind build_pairs]. eapply done_close; eauto; [exact Logic.I|]. intros h. cbn [cell_image]. split; auto.
      eapply seq_elements; eauto.
  - (* buffer *)
    intros open key o b r Hx _ K Hk O R st P I. pose proof (wf_at H cfg root WF o _ O Hx) as W.
    pose proof (buffer_cell b st W) as B. unfold keeps_resizable in B. rewrite K in B. cbn [build]. rewrite B.
    cbn [build_view alloc_rec alloc]; unfold ModelDecode.record; cbn [ds_heap ds_log]. done_cell; eauto; [exact Logic.I|]. intros h _. cbn [cell_image]. unfold keeps_resizable. rewrite K. auto.
  - intros open key o b r Hx _ K Hk O R st P I. pose proof (wf_at H cfg root WF o _ O Hx) as W.
    pose proof (buffer_cell b st W) as B. unfold keeps_resizable in B. rewrite K in B. cbn [build]. rewrite B.
    cbn [build_view alloc_rec alloc]; unfold ModelDecode.record; cbn [ds_heap ds_log]. done_cell; eauto; [exact Logic.I|]. intros h _. cbn [cell_image]. unfold keeps_resizable. rewrite K. auto.
  - intros open key o id r Hx _ Hk O R st P I. cbn [build build_buf build_view alloc ds_heap ds_log].
    assert (Rf : refs = true -> False) by (intros Rt; exact (AL Rt o _ O Hx)). done_anon; eauto; [exact Logic.I|]. intros h _. reflexivity.
  - intros open key o id r Hx _ Hk O R st P I. cbn [build build_buf build_view alloc ds_heap ds_log].
    assert (Rf : refs = true -> False) by (intros Rt; exact (AL Rt o _ O Hx)). done_anon; eauto; [exact Logic.I|]. intros h _. reflexivity.
  - intros open key o o' d r Hx _ Eo Hk O R st P I. cbn [build build_buf build_view alloc_rec alloc]; unfold ModelDecode.record; cbn [ds_heap ds_log].
    done_cell; eauto; [exact Logic.I|intros Rt; rewrite (Eo Rt); auto|]. intros h _. reflexivity.
  - intros open key o d r Hx _ Hk O R st P I. cbn [build build_buf build_view alloc_rec alloc]; unfold ModelDecode.record; cbn [ds_heap ds_log].
    done_cell; eauto; [exact Logic.I|]. intros h _. reflexivity.
  - intros open key o b v r w r1 w' Hx _ HN _ _ IH A Hk O R st P I. subst key. eapply view_done; eauto.
  - intros open key o b v code r Hx _ Nd NC Hk O R st P I. eapply node_done; eauto.
  - intros open r F R st P I. exists [], st, R. split; [reflexivity|]. split; [reflexivity|]. split; [constructor|]. split; auto. apply incl_refl.
  - intros open v l r w r1 ws r' _ IH1 _ IH2 F R st P I. inversion F as [|? ? Ov Ol]; subst.
    destruct (IH1 eq_refl Ov _ _ _ I) as (v' & st1 & R1 & B & M & IC & I1).
    destruct (IH2 Ol _ _ _ I1) as (l' & st2 & R2 & Bm & Be & Ml & IC2 & I2).
    exists (v' :: l'), st2, R2. split; [|split; [|split; [|split]]]; auto.
    + intros acc. rewrite build_members_cons, B. cbn [bind add_all]. destruct (put_member acc v'); cbn [bind]; auto.
    + intros acc i. rewrite build_elems_cons, B. cbn [bind elems_all]. destruct (put dcfg acc (VInt (Z.of_N i)) v'); cbn [bind]; auto.
    + constructor; auto. eapply image_mono; [apply incl_rel; exact IC2|exact M].
    + eapply incl_tran; eauto.
  - intros open key r _ F R st P I. exists [], st, R. split; [reflexivity|]. split; [constructor|]. split; auto. apply incl_refl.
  - intros open key k v l r w1 r1 w2 r2 ws r' D1 IH1 _ IH2 _ IH3 G F R st P I.
    cbn [flat flat_map fst snd app] in F. inversion F as [|? ? Ok F1]; subst. inversion F1 as [|? ? Ov Ol]; subst.
    destruct key.
    + specialize (G eq_refl). cbn [map fst] in G. inversion G as [|? ? Gk Gl]; subst.
      destruct (key_build _ _ _ _ _ st D1 Gk) as [B ->].
      destruct (IH2 eq_refl Ov _ _ _ I) as (v' & st1 & R1 & B1 & M1 & IC1 & I1).
      destruct (IH3 (fun _ => Gl) Ol _ _ _ I1) as (l' & st2 & R2 & B2 & Ml & IC2 & I2).
      exists ((k, v') :: l'), st2, R2. split; [|split; [|split]]; auto.
      * intros acc. rewrite build_pairs_cons, B. cbn [bind]. rewrite B1. cbn [bind put_all]. destruct (put dcfg acc k v'); cbn [bind]; auto.
      * constructor; auto. split; auto. eapply image_mono; [apply incl_rel; exact IC2|exact M1].
      * eapply incl_tran; eauto.
    + destruct (IH1 eq_refl Ok _ _ _ I) as (k' & st0 & R0 & B0 & M0 & IC0 & I0).
      destruct (IH2 eq_refl Ov _ _ _ I0) as (v' & st1 & R1 & B1 & M1 & IC1 & I1).
      destruct (IH3 ltac:(discriminate) Ol _ _ _ I1) as (l' & st2 & R2 & B2 & Ml & IC2 & I2).
      exists ((k', v') :: l'), st2, R2. split; [|split; [|split]]; auto.
      * intros acc. rewrite build_pairs_cons, B0. cbn [bind]. rewrite B1. cbn [bind put_all]. destruct (put dcfg acc k' v'); cbn [bind]; auto.
      * constructor; auto. split; cbn [fst snd]; [eapply image_mono; [apply incl_rel, (incl_tran IC1 IC2)|exact M0]|eapply image_mono; [apply incl_rel; exact IC2|exact M1]].
      * eapply incl_tran; [exact IC0|]. eapply incl_tran; eauto.
Qed.
End Trip.
