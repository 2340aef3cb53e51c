(** encode writes descriptions, continued: the steps. *)
From Coq Require Import List NArith ZArith Bool Lia ZifyBool ZifyNat ZifyN.
From Verif Require Import Base Dict ModelTags ModelPrim SpecPrim PrimFacts PrimFacts2 PrimFacts3 SpecNumber ModelLog LogFacts
  ModelArray SpecArray ArrayFacts3 ModelValue ValueFacts KeyFacts ModelObject SpecObject ObjectFacts ModelMap MapFacts ModelBuffer BufferFacts ModelHeap SpecWire
  ModelDecode ModelEncode HashFacts SpecEncode DoubleFacts EncodeFacts.
Import ListNotations.
Open Scope N_scope.

(** * Items of the containers *)
Lemma entries_from_in {T} (l : list (option T)) : forall j i v, In (i, v) (entries_from j l) ->
  (j <= i)%Z /\ nth_error l (Z.to_nat (i - j)) = Some (Some v).
Proof.
  induction l as [|[x|] l IH]; intros j i v Hi; [destruct Hi| |].
  - destruct Hi as [[= <- <-]|Hi]; [split; [lia|replace (Z.to_nat (j - j)) with O by lia; reflexivity]|].
    apply IH in Hi as [A B]. split; [lia|]. replace (Z.to_nat (i - j)) with (S (Z.to_nat (i - (j + 1)))) by lia. exact B.
  - apply IH in Hi as [A B]. split; [lia|]. replace (Z.to_nat (i - j)) with (S (Z.to_nat (i - (j + 1)))) by lia. exact B.
Qed.
Lemma jo_items_of_spec (x : jsobj val) l : (forall k v, In (k, v) l -> jo_get x k = Ok v) ->
  jo_items_of x (map fst l) = Ok (map (fun p => (pkey_val (fst p), snd p)) l).
Proof.
  induction l as [|[k v] l IH]; intros A; [reflexivity|]. cbn [map fst jo_items_of].
  rewrite (A k v) by (left; auto). cbn [bind]. rewrite IH by (intros; apply A; right; auto). reflexivity.
Qed.
Lemma jo_items_spec (x : jsobj val) : wf_jsobj x -> jo_items x = Ok (own_items x).
Proof.
  intros (Ha & Nd & Nk & _). unfold jo_items, jo_iter. destruct (arr_indexes_spec _ Ha) as (a' & -> & _). cbn [fst].
  set (l := map (fun p : Z * val => (PInt (fst p), snd p)) (entries_from 0 (aabs (jo_arr x))) ++
            map (fun p : list N * val => (PStr (fst p), snd p)) (jo_props x)).
  replace (map PInt _ ++ map PStr _) with (map fst l).
  - rewrite jo_items_of_spec.
    + unfold l, own_items, named_items. rewrite map_app, !map_map. reflexivity.
    + intros k v Hi. apply in_app_iff in Hi as [Hi|Hi]; apply in_map_iff in Hi as ([i y] & [= <- <-] & Hi).
      * apply entries_from_in in Hi as [A B]. rewrite Z.sub_0_r in B. cbn [jo_get fst snd].
        assert (L : (i < arr_len (jo_arr x))%Z).
        { rewrite arr_len_eq by auto. apply nth_error_Some_lt in B || (assert (Z.to_nat i < length (aabs (jo_arr x)))%nat by (apply nth_error_Some; congruence)). unfold ModelArray.zlen. lia. }
        destruct (Z.leb_spec 0 i); [|lia]. destruct (Z.ltb_spec i (arr_len (jo_arr x))); [|lia]. cbn [andb].
        rewrite arr_get_in by (auto; lia). cbn [bind]. unfold elem_at. destruct (Z.ltb_spec i 0); [lia|]. rewrite B. reflexivity.
      * cbn [jo_get fst snd]. rewrite (in_dget listN_eqb listN_eqb_spec _ y); auto.
  - unfold l. rewrite map_app, !map_map, indexes_entries, map_map. reflexivity.
Qed.
Lemma jm_items_spec bo (m : jsmap val) : cinv bo (@fst val val) m -> jm_items bo m = Ok (map snd m).
Proof. intros I. unfold jm_items, jm_iter. apply jm_items_of_spec; auto. apply incl_refl. Qed.

Ltac to_body := match goal with |- wire _ ?w _ => apply (wire_i 15 w) end.

Section Steps.
Variable H : heap.
Variable cfg : ecfg.
Variables refs node : bool.
Variable root : val.
Hypothesis WF : wf_graph H cfg root.
Notation feat := (e_features cfg).
Notation rep := (rep_of H refs root).
Notation occ := (occurs H root).
Notation desc := (describes H cfg refs node rep).
Notation wrt := (writes H cfg refs node rep).
Notation vals_of := (wvals_of H cfg refs node rep).
Notation pairs_of := (wpairs_of H cfg refs node rep).
Notation st_ok := (st_ok H refs root).

Definition simple_key (v : val) : Prop := match v with VStr _ | VInt _ => True | _ => False end.
Definition enc_ok (enc : val -> W) : Prop :=
  (forall v st r open bs st', occ v -> st_ok st r open -> enc v st = Ok (bs, st') ->
     exists w r', desc open false v r w r' /\ wire 15 w bs /\ st_ok st' r' open) /\
  (forall k st r open bs st', simple_key k -> occ k -> st_ok st r open ->
     enc k (set_allowed st (Some KeyTags)) = Ok (bs, st') ->
     exists w, desc open true k r w r /\ wire 15 w bs /\ is_key w /\ st_ok (set_allowed st' None) r open).

Lemma rep_refl v : rep v v.
Proof. unfold rep_of. destruct refs; [left|]; auto. Qed.
Lemma rep_prim v v0 : rep v v0 -> simple_key v -> v0 = v.
Proof.
  unfold rep_of. destruct refs; [|intros <-; auto]. intros [<-|(A & B & _)]; auto.
  pose proof (hash_key_eq H v v0 A B) as E. destruct v; try contradiction; auto.
Qed.
Lemma rep_buffer b v0 y : rep (VRef b) v0 -> nth_error H b = Some y -> buffer_like y ->
  exists b0 y0, v0 = VRef b0 /\ nth_error H b0 = Some y0 /\ buffer_like y0.
Proof.
  unfold rep_of. intros R Hb Hy. destruct refs; [|subst; eauto]. destruct R as [<-|(A & B & _)]; eauto.
  destruct (hash_key_eq H _ _ A B) as [b0 ->]. pose proof (hash_key_buffer H b b0 y A B Hb) as K. exists b0.
  destruct y; try contradiction; eauto. destruct K as (y0 & E & _). exists (OBuffer y0). cbn [buffer_like]. auto.
Qed.

(** * Loops *)
Section Loops.
Variable enc : val -> W.
Hypothesis EO : enc_ok enc.

Lemma values_ok l : forall st r open bs st', Forall occ l -> st_ok st r open -> w_values enc l st = Ok (bs, st') ->
  exists ws r', vals_of open l r ws r' /\ wseq 15 ws bs /\ vcount ws = lenN l /\ st_ok st' r' open.
Proof.
  induction l as [|v l IH]; intros st r open bs st' Fl So E; cbn [w_values] in E.
  - winv. exists VNil, r. split; [constructor|]. split; [constructor|]. split; auto.
  - apply w_seq_Ok in E as (x & s1 & y & E1 & E & ->). apply Forall_cons_iff in Fl as [Ov Ol].
    destruct (proj1 EO _ _ _ _ _ _ Ov So E1) as (w & r1 & D & Wi & So1).
    destruct (IH _ _ _ _ _ Ol So1 E) as (ws & r' & D' & Ws & Cn & So').
    exists (VCons w ws), r'. split; [econstructor; eauto|]. split; [constructor; auto|]. split; auto.
    cbn [vcount]. rewrite Cn, lenN_cons. lia.
Qed.
Lemma items_ok l : forall st r open bs st', Forall occ (flat l) -> st_ok st r open -> w_items enc enc l st = Ok (bs, st') ->
  exists ps r', pairs_of open false l r ps r' /\ wprs 15 ps bs /\ pcount ps = lenN l /\ st_ok st' r' open.
Proof.
  induction l as [|[k v] l IH]; intros st r open bs st' Fl So E; cbn [w_items] in E.
  - winv. exists PNil, r. split; [constructor|]. split; [constructor|]. split; auto.
  - apply w_seq_Ok in E as (x & s1 & y & E1 & E & ->). apply w_seq_Ok in E as (x2 & s2 & y2 & E2 & E & ->).
    cbn [flat flat_map fst snd app] in Fl. apply Forall_cons_iff in Fl as [Ok_ Fl]. apply Forall_cons_iff in Fl as [Ov Ol].
    destruct (proj1 EO _ _ _ _ _ _ Ok_ So E1) as (w1 & r1 & D1 & Wi1 & So1).
    destruct (proj1 EO _ _ _ _ _ _ Ov So1 E2) as (w2 & r2 & D2 & Wi2 & So2).
    destruct (IH _ _ _ _ _ Ol So2 E) as (ps & r' & D' & Ws & Cn & So').
    exists (PCons w1 w2 ps), r'. split; [econstructor; eauto|]. split; [constructor; auto|]. split; auto.
    cbn [pcount]. rewrite Cn, lenN_cons. lia.
Qed.
Lemma props_ok l : forall st r open bs st', Forall (fun p => simple_key (fst p)) l -> Forall occ (flat l) -> st_ok st r open ->
  w_items (fun k => constrained KeyTags (enc k)) enc l st = Ok (bs, st') ->
  exists ps r', pairs_of open true l r ps r' /\ wprs 15 ps bs /\ keys_ok ps /\ pcount ps = lenN l /\ st_ok st' r' open.
Proof.
  induction l as [|[k v] l IH]; intros st r open bs st' Fk Fl So E; cbn [w_items] in E.
  - winv. exists PNil, r. split; [constructor|]. split; [constructor|]. split; [exact I|]. split; auto.
  - apply w_seq_Ok in E as (x & s1 & y & E1 & E & ->). apply w_seq_Ok in E as (x2 & s2 & y2 & E2 & E & ->).
    cbn [flat flat_map fst snd app] in Fl. apply Forall_cons_iff in Fl as [Ok_ Fl]. apply Forall_cons_iff in Fl as [Ov Ol].
    apply Forall_cons_iff in Fk as [Kk Kl]. cbn [fst] in Kk.
    unfold constrained in E1. apply bind_Ok in E1 as [[x0 s0] [E1 E1']]. injection E1' as <- <-.
    destruct (proj2 EO _ _ _ _ _ _ Kk Ok_ So E1) as (w1 & D1 & Wi1 & Ik & So1).
    destruct (proj1 EO _ _ _ _ _ _ Ov So1 E2) as (w2 & r2 & D2 & Wi2 & So2).
    destruct (IH _ _ _ _ _ Kl Ol So2 E) as (ps & r' & D' & Ws & Ks & Cn & So').
    exists (PCons w1 w2 ps), r'. split; [econstructor; eauto|]. split; [constructor; auto|]. split; [split; auto|]. split; auto.
    cbn [pcount]. rewrite Cn, lenN_cons. lia.
Qed.

(** * The last step *)
Lemma constant_ok t st r open bs st' : In t JS_CONSTANT_TAGS -> st_ok st r open -> write_constant t st = Ok (bs, st') ->
  wire 15 (WConst t) bs /\ st_ok st' r open.
Proof.
  intros Ht So E. unfold write_constant, constrained in E. apply bind_Ok in E as [[x s1] [E1 E]]. injection E as <- <-.
  apply w_tag_Ok in E1 as (-> & -> & _). split; [to_body; constructor; auto|].
  destruct So as (L & S' & A). split; auto.
Qed.
Lemma int_ok (key : bool) z st r open bs st' : st_ok st r open ->
  serialize_int z (set_allowed st (if key then Some KeyTags else None)) = Ok (bs, st') ->
  exists w, int_wire key z w /\ wire 15 w bs /\ (key = true -> is_key w) /\
    st' = set_allowed st (if key then Some KeyTags else None).
Proof.
  intros So E. unfold serialize_int in E. unfold in_uint32, in_int32, in_safe_int in E.
  destruct (((0 <=? z) && (z <? 4294967296))%Z) eqn:U.
  - unfold write_uint32 in E. apply bind_Ok in E as [p [Ep E]]. winv. apply uint32_wire in Ep as [V R].
    exists (WUint32 (Z.to_N z)). split; [apply iw_uint32; auto|]. split; [to_body; constructor; auto|]. split; auto. intros; exact I.
  - destruct (((-2147483648 <=? z) && (z <? 2147483648))%Z) eqn:I32.
    + unfold write_int32 in E. apply bind_Ok in E as [p [Ep E]]. winv. apply int32_wire in Ep as [R V].
      exists (WInt32 z). split; [apply iw_int32; change (2 ^ 31)%Z with 2147483648%Z; lia|]. split; [to_body; constructor; auto|]. split; auto. intros; exact I.
    + destruct (((-9007199254740991 <=? z) && (z <? 9007199254740992))%Z) eqn:Sf.
      * unfold write_double in E. winv.
        assert (D : double_is (double_of_Z z) z) by (apply double_of_Z_spec; change (2 ^ 53)%Z with 9007199254740992%Z; lia).
        exists (WDouble (double_of_Z z)). split; [|split; [|split; [intros; exact I|auto]]].
        -- apply iw_double; auto; change (2 ^ 53)%Z with 9007199254740992%Z; change (2 ^ 31)%Z with 2147483648%Z;
             change (2 ^ 32)%Z with 4294967296%Z; lia.
        -- to_body. constructor. apply double_wire. apply D.
      * assert (Big : (2 ^ 53 <= Z.abs z)%Z) by (change (2 ^ 53)%Z with 9007199254740992%Z; lia).
        destruct key; cbn [es_allowed set_allowed] in E.
        -- apply bind_Ok in E as [s [Es E]]. unfold write_onebyte in E. apply bind_Ok in E as [p [Ep E]]. winv.
           assert (Es' : s = dec_Z z) by (destruct (int_str_spec z) as [[_ X]|[_ X]]; rewrite X in Es; congruence). subst s.
           exists (WStr kOneByteString (dec_Z z)). split; [apply iw_string; auto; apply dec_Z_numeral|].
           split; [to_body; constructor; apply onebyte_wire; auto|]. split; auto. intros; exact I.
        -- unfold write_bigint in E. apply bind_Ok in E as [p [Ep E]]. winv. exists (WBigInt z). split; [apply iw_bigint; auto|].
           split; [to_body; constructor; apply bigint_wire; auto|]. split; auto. discriminate.
Qed.
Lemma opt_str_ok e x st bs st' : opt_all (Forall code_point) x ->
  w_opt (fun m => w_seq (w_varint (etag_byte e)) (write_utf8 m)) x st = Ok (bs, st') ->
  wfield e (utf8_field x) bs /\ st' = st.
Proof.
  intros Ha E. destruct x as [s|]; cbn [w_opt utf8_field] in *; [|winv; split; [constructor|auto]].
  apply w_seq_Ok in E as (x & s1 & y & E1 & E & ->). apply w_varint_Ok in E1 as [-> ->].
  unfold write_utf8 in E. apply bind_Ok in E as [p [Ep E]]. apply w_seq_Ok in E as (x & s1 & y1 & E1 & E & ->).
  apply w_tag_Ok in E1 as (-> & -> & _). apply w_raw_Ok in E as [-> ->]. split; auto.
  constructor; [apply is_varint_bytes|apply tagged_i|]. apply utf8_wire; auto.
Qed.
Lemma proto_ok n st bs st' : w_opt (fun t => w_varint (etag_byte t)) (ename_tag n) st = Ok (bs, st') ->
  wproto (ename_tag n) bs /\ st' = st.
Proof.
  destruct n; cbn [ename_tag w_opt]; intros E; winv; (split; [|auto]); constructor; try apply is_varint_bytes; cbn [In]; auto 10.
Qed.
Lemma acyclic_Ok sid {A} (r : result A) x : acyclic_exn sid r = Ok x -> r = Ok x.
Proof. destruct r as [a|e]; auto. destruct e; cbn [acyclic_exn]; try discriminate. destruct (_ =? _)%nat; discriminate. Qed.
Lemma fresh_open st r open o : st_ok st r open -> fresh refs o r -> ~ (refs = true /\ In o open).
Proof. intros (L & _) F [Hr C]. destruct (L Hr) as (_ & _ & I' & _). apply (F Hr). auto. Qed.
(** the cause of an error *)
Lemma cause_ok o c st r open bs st' : occ c -> st_ok st r open -> fresh refs o r ->
  (if f_circular feat then w_seq (w_record o) (enc c) else w_acyclic o (enc c)) st = Ok (bs, st') ->
  exists w r', desc (if f_circular feat then open else o :: open) false c (r ++ [o]) w r' /\ wire 15 w bs /\ st_ok st' r' open.
Proof.
  intros Oc So F E. destruct (f_circular feat).
  - apply w_seq_Ok in E as (x & s1 & y & E1 & E & ->). apply w_record_Ok in E1 as [-> ->].
    apply (proj1 EO _ _ _ _ _ _ Oc (st_record _ _ _ _ _ _ _ So F) E).
  - unfold w_acyclic in E. rewrite open_acyclic_eq in E. apply acyclic_Ok in E. apply bind_Ok in E as [[x s1] [E1 E]]. injection E as <- <-.
    pose proof So as So0. destruct So as (L & S' & A).
    assert (So1 : st_ok (set_log st (mkLog (dset Nat.eqb (pyid o) (length (log_entries (es_log st))) (log_ids (es_log st))) (log_entries (es_log st) ++ [EFwd None])))
                    (r ++ [o]) (o :: open)).
    { split; [|split; auto]. cbn [es_log set_log]. apply (logrel_add refs _ _ _ o (EFwd None)); auto. }
    destruct (proj1 EO _ _ _ _ _ _ Oc So1 E1) as (w & r' & D & Wi & (L1 & S1 & A1)).
    exists w, r'. split; auto. split; auto. split; [|split; auto]. cbn [es_log set_log].
    destruct (proj1 (describes_ext H cfg refs node root) _ _ _ _ _ _ D) as [d Ed].
    intros Hr. destruct (L Hr) as (Ln & _). revert Hr. apply logrel_close; auto.
    + eapply fresh_open; eauto.
    + rewrite Ed, <- app_assoc, nth_error_app2 by lia. rewrite Ln, Nat.sub_diag. reflexivity.
Qed.

Lemma occ_child_obj o x v : occ (VRef o) -> nth_error H o = Some x -> In v (children x) -> occ v.
Proof. intros A B C. eapply occ_child; eauto. Qed.
Lemma occ_children o x l : occ (VRef o) -> nth_error H o = Some x -> incl l (children x) -> Forall occ l.
Proof. intros A B C. apply Forall_forall. intros v Hv. eapply occ_child; eauto. Qed.
Lemma own_simple (x : jsobj val) : Forall (fun p => simple_key (fst p)) (own_items x).
Proof.
  unfold own_items, named_items. apply Forall_app. split; apply Forall_forall; intros p Hp;
    apply in_map_iff in Hp as (q & <- & _); exact I.
Qed.
Lemma named_simple (x : jsobj val) : Forall (fun p => simple_key (fst p)) (named_items x).
Proof. pose proof (own_simple x) as O. unfold own_items in O. apply Forall_app in O. apply O. Qed.
Lemma wf_occ o x : occ (VRef o) -> nth_error H o = Some x -> wf_obj H cfg x.
Proof. intros O E. destruct (WF _ O) as (y & Ey & Wy). rewrite E in Ey. injection Ey as <-. auto. Qed.
Lemma flat_app a b : flat (a ++ b) = flat a ++ flat b.
Proof. apply flat_map_app. Qed.

Lemma buffer_desc open key b y r w r1 : desc open key (VRef b) r w r1 -> nth_error H b = Some y -> buffer_like y ->
  (exists id, w = WRef id None /\ r1 = r) \/
  (exists bf b0 y0, w = WBuf bf None /\ nth_error H b0 = Some y0 /\ buffer_like y0 /\ (refs = true -> r1 = r ++ [b0])).
Proof.
  intros D Hb Hy. inversion D; subst. destruct (rep_buffer _ _ _ H0 Hb Hy) as (b0 & y0 & -> & Hb0 & Hy0). clear D H0.
  inversion H1; subst; try (match goal with X : nth_error H b0 = Some _ |- _ => rewrite Hb0 in X; injection X as -> end; try contradiction);
    try (left; eexists; split; reflexivity); right.
  all: try (do 3 eexists; split; [reflexivity|]; split; [exact Hb0|]; split; [exact I|]; auto; fail).
  do 3 eexists. split; [reflexivity|]. split; [exact Hb0|]. split; [exact I|]. intros Hr.
  match goal with X : refs = true -> _ = b0 |- _ => rewrite (X Hr); reflexivity end.
Qed.

Lemma wire_attach v w w' bs vb : wire 15 w bs -> attach v w w' -> wviewb 15 (Some v) vb -> wire 15 w' (bs ++ vb).
Proof.
  intros Wi At Vb. destruct Wi as [w tb bs T B]. rewrite <- app_assoc. destruct At; constructor; auto.
  - inversion B as [| | | | | | | | | | | | | | | | | |? ? bb v0 Wb Wn| | |]; subst. inversion Wn; subst. rewrite app_nil_r. constructor; auto.
  - inversion B as [| | | | | | | | | | | | | | | | | | |? ? bb v0 Wb Wn| |]; subst. inversion Wn; subst. rewrite app_nil_r. constructor; auto.
Qed.
Lemma zlen_lenN d : Z.to_N (zlen d) = lenN d.
Proof. unfold zlen, lenN. lia. Qed.

Lemma st_set_none st r open : st_ok st r open -> set_allowed st None = st.
Proof. intros (_ & _ & A). destruct st; cbn in *. subst. reflexivity. Qed.

Lemma tagwriter_ok next v st r open bs st' : occ v -> st_ok st r open ->
  (forall o, v = VRef o -> fresh refs o r) ->
  (refs = true -> deduplicate H v st = (v, st)) ->
  (node = true -> forall o b w, v = VRef o -> nth_error H o = Some (OView b w) -> node_code (vw_tag w) = None) ->
  (forall st x, next v st <> Ok x) ->
  step_tagwriter H cfg enc v next st = Ok (bs, st') ->
  exists w r', wrt open false v r w r' /\ wire 15 w bs /\ st_ok st' r' open.
Proof.
  intros O So Fr Dd Nd Nx E. pose proof (WF v O) as Wv.
  destruct v as [| | |b|z|b|s|o]; cbn [step_tagwriter] in E.
  1-4: apply (constant_ok _ _ r open) in E; auto; [|try destruct b; cbn [JS_CONSTANT_TAGS In]; auto 10]; destruct E;
    do 2 eexists; (split; [constructor|]); auto.
  - rewrite <- (st_set_none _ _ _ So) in E. apply (int_ok false z st r open) in E as (w & I1 & Wi & _ & ->); auto.
    exists w, r. split; [constructor; auto|]. split; auto. rewrite (st_set_none _ _ _ So). auto.
  - unfold write_double in E. winv. exists (WDouble b), r. split; [constructor|]. split; auto.
    to_body. constructor. apply double_wire. exact Wv.
  - unfold write_utf8 in E. apply bind_Ok in E as [p [Ep E]]. winv. exists (WStr kUtf8String s), r. split; [constructor|]. split; auto.
    to_body. constructor. apply utf8_wire; auto.
  - specialize (Fr o eq_refl). destruct Wv as (x & Hx & Wx). rewrite Hx in E.
    assert (Rec : st_ok (set_log st (snd (log_record pyid (es_log st) o))) (r ++ [o]) open) by (apply st_record; auto).
    destruct x as [m|m|x|x|s f|n m s c|t x|d|b|id|id|b w|id|l|l|t l|d|d|]; cbn [wf_obj] in Wx.
    + (* OMap *)
      rewrite jm_items_spec in E by auto. cbn [w_with] in E. unfold write_jsmap in E. winv.
      match goal with X : w_items _ _ _ _ = _ |- _ => apply (items_ok (map snd m) _ (r ++ [o]) open) in X as (ps & r' & D & Wp & Cn & So'); auto end;
        [|apply (occ_children o _ _ O Hx (incl_refl _))].
      exists (WMap ps), r'. split; [eapply wr_map; eauto|]. split; auto.
      to_body. apply wb_map; auto using tagged_i. rewrite Cn. apply is_varint_bytes.
    + (* OSet *)
      unfold write_jsset, js_iter in E. winv.
      match goal with X : w_values _ _ _ = _ |- _ => apply (values_ok (map snd m) _ (r ++ [o]) open) in X as (vs & r' & D & Wp & Cn & So'); auto end;
        [|apply (occ_children o _ _ O Hx (incl_refl _))].
      exists (WSet vs), r'. split; [eapply wr_set; eauto|]. split; auto.
      to_body. apply wb_set; auto using tagged_i. rewrite Cn. apply is_varint_bytes.
    + (* OObject *)
      rewrite jo_items_spec in E by auto. cbn [w_with] in E. unfold write_js_object, write_properties in E. winv.
      match goal with X : w_items _ _ _ _ = _ |- _ => apply (props_ok (own_items x) _ (r ++ [o]) open) in X as (ps & r' & D & Wp & Ks & Cn & So'); auto using own_simple end;
        [|apply (occ_children o _ _ O Hx (incl_refl _))].
      exists (WObject ps), r'. split; [eapply wr_object; eauto|]. split; auto.
      to_body. apply wb_object; auto using tagged_i. rewrite Cn. apply is_varint_bytes.
    + (* OArray *)
      pose proof (proj1 Wx) as Ha. unfold serialize_js_array in E. destruct (sparse_is_smaller (jo_arr x)).
      * rewrite jo_items_spec in E by auto. cbn [w_with] in E. unfold write_sparse, write_properties in E.
        destruct (_ || _)%bool in E; [discriminate E|]. winv.
        match goal with X : w_items _ _ _ _ = _ |- _ => apply (props_ok (own_items x) _ (r ++ [o]) open) in X as (ps & r' & D & Wp & Ks & Cn & So'); auto using own_simple end;
          [|apply (occ_children o _ _ O Hx); apply incl_appr, incl_refl].
        exists (WSparse (lenN (aabs (jo_arr x))) ps), r'. split; [eapply wr_sparse; eauto|]. split; auto.
        assert (Ln : Z.to_N (arr_len (jo_arr x)) = lenN (aabs (jo_arr x))) by (rewrite arr_len_eq by auto; unfold ModelArray.zlen, lenN; lia).
        rewrite Ln. rewrite <- !app_assoc. to_body. apply wb_sparse; auto using tagged_i, is_varint_bytes. rewrite Cn. apply is_varint_bytes.
      * rewrite arr_iter_eq in E by auto. cbn [w_with] in E. unfold write_dense in E. winv.
        match goal with X : w_values _ _ _ = _ |- _ => apply (values_ok (elements x) _ (r ++ [o]) open) in X as (vs & r1 & D & Wv & Cv & So1); auto end;
          [|apply (occ_children o _ _ O Hx); apply incl_appl, incl_refl].
        destruct (N.eqb_spec (count (map of_elem (aabs (jo_arr x)))) (Z.to_N (arr_len (jo_arr x)))) as [Ec|]; winv.
        match goal with X : w_items _ _ _ _ = _ |- _ => apply (props_ok (named_items x) _ r1 open) in X as (ps & r' & Dp & Wp & Ks & Cn & So'); auto using named_simple end;
          [|apply (occ_children o _ _ O Hx); apply incl_appr; unfold own_items; rewrite flat_app; apply incl_appr, incl_refl].
        exists (WDense vs ps), r'. split; [eapply wr_dense; eauto|]. split; auto.
        rewrite <- Ec. unfold count. fold (elements x). rewrite <- Cv. change (jo_properties x) with (named_items x).
        rewrite !app_nil_l. to_body. apply wb_dense; auto using tagged_i, is_varint_bytes. rewrite Cn. apply is_varint_bytes.
    + (* ORegExp *)
      unfold write_regexp in E. apply w_seq_Ok in E as (x1 & s1 & y1 & E1 & E & ->). apply w_tag_Ok in E1 as (-> & -> & _).
      apply w_seq_Ok in E as (x2 & s2 & y2 & E2 & E & ->). unfold write_utf8 in E2. apply bind_Ok in E2 as [p [Ep E2]]. winv.
      exists (WRegExp kUtf8String s (N.land f 0x1FF)), r. split; [apply wr_regexp; auto|]. split; auto.
      rewrite <- app_assoc. to_body. constructor; auto using tagged_i, is_varint_bytes. apply utf8_wire; auto. apply Wx.
    + (* OError *)
      destruct Wx as [Wm Ws]. unfold write_error in E.
      apply w_seq_Ok in E as (x1 & s1 & y1 & E1 & E & ->). apply w_tag_Ok in E1 as (-> & -> & _).
      apply w_seq_Ok in E as (x2 & s2 & y2 & E2 & E & ->). apply proto_ok in E2 as [Wn ->].
      apply w_seq_Ok in E as (x3 & s3 & y3 & E3 & E & ->). apply opt_str_ok in E3 as [Wm' ->]; auto.
      apply w_seq_Ok in E as (x4 & s4 & y4 & E4 & E & ->). apply opt_str_ok in E4 as [Ws' ->]; auto.
      apply w_seq_Ok in E as (x5 & s5 & y5 & E5 & E & ->). apply w_varint_Ok in E as [-> ->].
      assert (C : c = VNone \/ c <> VNone) by (destruct c; auto; right; discriminate). destruct C as [->|Nc].
      * winv. exists (WError (ename_tag (for_error_name n)) (utf8_field m) (utf8_field s)), r.
        split; [apply wr_error; auto|]. split; auto. to_body. constructor; auto. apply is_varint_bytes.
      * assert (E5' : w_seq (w_varint (etag_byte eCause)) (if f_circular feat then w_seq (w_record o) (enc c) else w_acyclic o (enc c)) st = Ok (x5, s5))
          by (destruct c; auto; congruence). clear E5.
        apply w_seq_Ok in E5' as (x6 & s6 & y6 & E6 & E5 & ->). apply w_varint_Ok in E6 as [-> ->].
        apply (cause_ok o c _ r open) in E5 as (w & r' & D & Wc & So'); auto.
        -- exists (WErrorC (ename_tag (for_error_name n)) (utf8_field m) (utf8_field s) w None), r'.
           split; [eapply wr_errorc; eauto|]. split; auto.
           rewrite <- !app_assoc. to_body.
           change (varint_bytes (etag_byte eEnd)) with ([] ++ varint_bytes (etag_byte eEnd)).
           constructor; auto; try apply is_varint_bytes. constructor.
        -- apply (occ_child_obj o _ c O Hx). cbn [children]. destruct c; try congruence; left; auto.
    + (* OPrim *)
      unfold write_primitive in E. winv. destruct t; try contradiction; destruct x as [| | |bb|z|bb|s|]; try contradiction; winv.
      * exists (WBoolObj true), (r ++ [o]). split; [eapply wr_prim; eauto; constructor|]. split; auto. to_body. constructor.
      * exists (WBoolObj false), (r ++ [o]). split; [eapply wr_prim; eauto; constructor|]. split; auto. to_body. constructor.
      * assert (D : double_is (double_of_Z z) z) by (apply double_of_Z_spec; auto).
        exists (WNumObj (double_of_Z z)), (r ++ [o]). split; [eapply wr_prim; eauto; constructor; auto|]. split; auto. to_body. constructor. apply double_wire. apply D.
      * exists (WNumObj bb), (r ++ [o]). split; [eapply wr_prim; eauto; constructor|]. split; auto. to_body. constructor. apply double_wire. auto.
      * exists (WBigObj z), (r ++ [o]). split; [eapply wr_prim; eauto; constructor|]. split; auto. to_body. constructor. apply bigint_wire. auto.
      * exists (WStr kStringObject s), (r ++ [o]). split; [eapply wr_prim; eauto; constructor|]. split; auto. to_body. constructor. apply utf8_wire; auto.
    + (* ODate *)
      unfold write_date in E. destruct (e_timestamp cfg d) as [b|e] eqn:Ed; [|discriminate]. winv.
      exists (WDate b), (r ++ [o]). split; [eapply wr_date; eauto|]. split; auto. to_body. constructor. apply double_wire. auto.
    + (* OBuffer *)
      unfold write_buffer in E. cbv zeta in E. destruct Wx as (Wb & Wl & _).
      assert (Bo : bytes_ok (jsbuf_view b)) by (apply bytes_ok_firstn; auto).
      destruct (jb_resizable b && f_resizable feat) eqn:Rz.
      * destruct (Z.ltb_spec (jb_max b) (zlen (jsbuf_view b))); [discriminate E|]. winv.
        repeat match goal with X : uint32_bytes _ = Ok _ |- _ => apply uint32_wire in X as [? ?] end. rewrite zlen_lenN in *.
        exists (WBuf (BufResizable (jsbuf_view b) (Z.to_N (jb_max b))) None), (r ++ [o]). split; [eapply wr_resizable; eauto|]. split; auto.
        to_body. rewrite <- (app_nil_r (_ ++ _ ++ _)). constructor; [|constructor]. constructor; auto.
        rewrite <- zlen_lenN. lia.
      * winv. repeat match goal with X : uint32_bytes _ = Ok _ |- _ => apply uint32_wire in X as [? ?] end. rewrite zlen_lenN in *.
        exists (WBuf (BufPlain (jsbuf_view b)) None), (r ++ [o]). split; [eapply wr_plain; eauto|]. split; auto.
        to_body. rewrite <- (app_nil_r (_ ++ _)). constructor; [|constructor]. constructor; auto.
    + (* OShared *)
      unfold write_buffer_id in E. winv. exists (WBuf (BufShared id) None), (r ++ [o]). split; [eapply wr_shared; eauto|]. split; auto.
      to_body. rewrite <- (app_nil_r (varint_bytes id)). constructor; [|constructor]. constructor. apply varint32_i; auto.
    + unfold write_buffer_id in E. winv. exists (WBuf (BufTransfer id) None), (r ++ [o]). split; [eapply wr_transfer; eauto|]. split; auto.
      to_body. rewrite <- (app_nil_r (varint_bytes id)). constructor; [|constructor]. constructor. apply varint32_i; auto.
    + (* OView *)
      destruct Wx as [Wv (y & Hb & Hy)]. destruct (vtag_beq (vw_tag w) vFloat16 && negb (f_float16 feat)) eqn:F16; [elim (Nx _ _ E)|].
      apply w_seq_Ok in E as (x1 & s1 & y1 & E1 & E & ->).
      assert (Ob : occ (VRef b)) by (apply (occ_child_obj o _ _ O Hx); left; auto).
      destruct (proj1 EO _ _ _ _ _ _ Ob So E1) as (wb & r1 & D & Wi & So1).
      assert (At : exists w', attach (wview_of (backing_of H b) w) wb w').
      { destruct (buffer_desc _ _ _ _ _ _ _ D Hb Hy) as [(id & -> & _)|(bf & _ & _ & -> & _)]; eexists; constructor. }
      assert (Fr1 : fresh refs o r1).
      { intros Hr. destruct (buffer_desc _ _ _ _ _ _ _ D Hb Hy) as [(id & _ & ->)|(bf & b0 & y0 & _ & Hb0 & Hy0 & Er)]; [apply Fr; auto|].
        rewrite (Er Hr), in_app_iff. intros [C|[C|[]]]; [apply (Fr Hr C)|]. subst b0. rewrite Hx in Hb0. injection Hb0 as <-. exact Hy0. }
      destruct At as [w' At]. unfold write_view in E. rewrite F16 in E. winv.
      repeat match goal with X : uint32_bytes _ = Ok _ |- _ => apply uint32_wire in X as [? ?] end.
      exists w', (r1 ++ [o]). split; [|split].
      * eapply wr_view; eauto.
        -- destruct node; auto. right. eapply Nd; eauto.
        -- intros Ev. rewrite Ev in F16. destruct (f_float16 feat); auto.
      * cbn [app]. apply (wire_attach _ _ _ _ _ Wi At). constructor; auto; try apply is_varint_bytes; try (intros; apply is_varint_bytes). intros C. cbv in C. discriminate C.
      * apply st_record; auto.
    + (* OSharedRef *)
      unfold write_shared_ref in E. winv. match goal with X : uint32_bytes _ = Ok _ |- _ => apply uint32_wire in X as [X ?]; rewrite N2Z.id in X end.
      exists (WSharedObj id), (r ++ [o]). split; [eapply wr_sharedref; eauto|]. split; auto. to_body. constructor. auto.
    + (* ODict *)
      unfold write_jsmap in E. winv.
      match goal with X : w_items _ _ _ _ = _ |- _ => apply (items_ok l _ (r ++ [o]) open) in X as (ps & r' & D & Wp & Cn & So'); auto end;
        [|apply (occ_children o _ _ O Hx (incl_refl _))].
      exists (WMap ps), r'. split; [eapply wr_dict; eauto|]. split; auto.
      to_body. apply wb_map; auto using tagged_i. rewrite Cn. apply is_varint_bytes.
    + (* OPySet *)
      unfold write_jsset in E. winv.
      match goal with X : w_values _ _ _ = _ |- _ => apply (values_ok l _ (r ++ [o]) open) in X as (vs & r' & D & Wp & Cn & So'); auto end;
        [|apply (occ_children o _ _ O Hx (incl_refl _))].
      exists (WSet vs), r'. split; [eapply wr_pyset; eauto|]. split; auto.
      to_body. apply wb_set; auto using tagged_i. rewrite Cn. apply is_varint_bytes.
    + (* OSeq *)
      unfold write_dense in E. winv.
      match goal with X : w_values _ _ _ = _ |- _ => apply (values_ok l _ (r ++ [o]) open) in X as (vs & r' & D & Wp & Cn & So'); auto end;
        [|apply (occ_children o _ _ O Hx (incl_refl _))].
      rewrite N.eqb_refl in *. cbn [w_items] in *. winv.
      exists (WDense vs PNil), r'. split; [eapply wr_seq; eauto|]. split; auto. unfold count. rewrite <- Cn.
      rewrite !app_nil_l. to_body. apply (wb_dense 15 vs PNil (varint_bytes (vcount vs)) x8 [] [tag_byte kEndDenseJSArray] (varint_bytes (lenN (@nil (val * val)))) (varint_bytes (vcount vs))); auto using tagged_i, is_varint_bytes; try apply is_varint_bytes; constructor.
    + (* OBytes *)
      unfold serialize_buffer in E. destruct (deduplicate H (VRef o) st) as [v0 s0] eqn:Ed.
      pose proof (dedup_st H refs root _ _ _ _ _ _ So O Ed) as So0. destruct So as (_ & Sn & _).
      destruct (dedup_spec H root _ _ _ _ Sn O Ed) as (Ev & Ov & _ & Elog & _ & _).
      destruct v0 as [| | | | | | |o']; try discriminate E.
      assert (F' : refs = true -> o' = o) by (intros Hr; specialize (Dd Hr); congruence).
      assert (Fr' : fresh refs o' r) by (intros Hr; rewrite (F' Hr); auto).
      unfold write_buffer in E. cbv zeta in E. cbn [jb_resizable andb] in E.
      assert (Ej : jsbuf_view (mkBuf d (zlen d) false false) = d) by (unfold jsbuf_view, zlen; cbn [jb_max jb_data]; rewrite Nat2Z.id; apply firstn_all).
      rewrite Ej in E. winv. match goal with X : uint32_bytes _ = Ok _ |- _ => apply uint32_wire in X as [? ?] end. rewrite zlen_lenN in *.
      exists (WBuf (BufPlain d) None), (r ++ [o']). split; [eapply wr_bytes; eauto|]. split; [|apply st_record; auto].
      to_body. rewrite <- (app_nil_r (_ ++ _)). constructor; [|constructor]. constructor; auto.
    + (* OByteArray *)
      unfold serialize_buffer in E. destruct (deduplicate H (VRef o) st) as [v0 s0] eqn:Ed.
      assert (Eh : hash_key H (VRef o) = None) by (unfold hash_key; rewrite hash_S, Hx; reflexivity).
      unfold deduplicate in Ed. rewrite Eh in Ed. injection Ed as <- <-.
      unfold write_buffer in E. cbv zeta in E. cbn [jb_resizable andb] in E.
      assert (Ej : jsbuf_view (mkBuf d (zlen d) false false) = d) by (unfold jsbuf_view, zlen; cbn [jb_max jb_data]; rewrite Nat2Z.id; apply firstn_all).
      rewrite Ej in E. winv. match goal with X : uint32_bytes _ = Ok _ |- _ => apply uint32_wire in X as [? ?] end. rewrite zlen_lenN in *.
      exists (WBuf (BufPlain d) None), (r ++ [o]). split; [eapply wr_bytearray; eauto|]. split; auto.
      to_body. rewrite <- (app_nil_r (_ ++ _)). constructor; [|constructor]. constructor; auto.
    + elim (Nx _ _ E).
Qed.

(** keys of properties *)
Lemma tagwriter_key next k st r open bs st' : simple_key k -> occ k -> st_ok st r open ->
  step_tagwriter H cfg enc k next (set_allowed st (Some KeyTags)) = Ok (bs, st') ->
  exists w, wrt open true k r w r /\ wire 15 w bs /\ is_key w /\ st_ok (set_allowed st' None) r open.
Proof.
  intros Sk O So E. pose proof (WF k O) as Wk. pose proof So as (L & S' & A). destruct k; try contradiction; cbn [step_tagwriter] in E.
  - apply (int_ok true z st r open) in E as (w & I1 & Wi & Ik & ->); auto. exists w. split; [constructor; auto|]. split; auto. split; auto.
    split; auto.
  - unfold write_utf8 in E. apply bind_Ok in E as [p [Ep E]]. winv. exists (WStr kUtf8String s). split; [constructor|].
    split; [to_body; constructor; apply utf8_wire; auto|]. split; [exact I|]. split; auto.
Qed.
End Loops.

(** * The chain of steps *)
Notation steps_of := (steps_of H cfg refs node).

Lemma unhandled_fails enc v st x : chain enc [] v st <> Ok x.
Proof. discriminate. Qed.
Lemma node_bytes o b w : occ (VRef o) -> nth_error H o = Some (OView b w) -> bytes_ok (snd (view_memory (backing_of H b) w)).
Proof.
  intros O Hx. destruct (wf_occ _ _ O Hx) as [_ (y & Hb & Hy)].
  assert (Ob : occ (VRef b)) by (apply (occ_child_obj o _ _ O Hx); left; auto).
  pose proof (wf_occ _ _ Ob Hb) as Wy. unfold view_memory. destruct (view_span _ w) as [[i s0] n]. cbn [snd]. unfold slice.
  apply bytes_ok_firstn, bytes_ok_skipn. unfold backing_of. rewrite Hb.
  destruct y; try constructor; cbn [bk_data]; auto. apply bytes_ok_firstn. apply Wy.
Qed.
(** node step and TagWriter *)
Lemma tail_ok enc v st r open bs st' : enc_ok enc -> occ v -> st_ok st r open ->
  (forall o, v = VRef o -> fresh refs o r) -> (refs = true -> deduplicate H v st = (v, st)) ->
  chain enc ((if node then [step_node H] else []) ++ [step_tagwriter H cfg]) v st = Ok (bs, st') ->
  exists w r', wrt open false v r w r' /\ wire 15 w bs /\ st_ok st' r' open.
Proof.
  intros EO O So Fr Dd E.
  assert (T : (node = true -> forall o b w, v = VRef o -> nth_error H o = Some (OView b w) -> node_code (vw_tag w) = None) ->
     step_tagwriter H cfg enc v (chain enc []) st = Ok (bs, st') ->
     exists w r', wrt open false v r w r' /\ wire 15 w bs /\ st_ok st' r' open).
  { intros Nd Et. eapply tagwriter_ok; eauto. intros; apply unhandled_fails. }
  assert (En : node = true \/ node = false) by (destruct node; auto). destruct En as [En|En]; rewrite En in E; cbn [app chain] in E.
  - unfold step_node in E. destruct v as [| | | | | | |o]; try (apply T; auto; intros; discriminate).
    destruct (nth_error H o) as [x|] eqn:Hx; [|apply T; auto; intros; congruence].
    assert (Nv : (forall b w, x <> OView b w) -> step_tagwriter H cfg enc (VRef o) (chain enc []) st = Ok (bs, st') ->
      exists w r', wrt open false (VRef o) r w r' /\ wire 15 w bs /\ st_ok st' r' open).
    { intros Nx. apply T. intros _ o0 b w [= <-] E1. rewrite Hx in E1. injection E1 as ->. elim (Nx b w eq_refl). }
    destruct x; try (apply Nv; auto; discriminate). clear Nv.
    destruct (node_code (vw_tag v)) as [code|] eqn:Ec.
    + unfold write_node_view in E. winv.
      repeat match goal with X : uint32_bytes _ = Ok _ |- _ => apply uint32_wire in X as [? ?] end. rewrite zlen_lenN, N2Z.id in *.
      eexists (WHost code _), r. split; [eapply wr_node; eauto|]. split; auto. to_body. constructor; auto. eapply node_bytes; eauto.
    + apply T; auto. intros _ o0 b w [= <-] E1. rewrite Hx in E1. injection E1 as <- <-. auto.
  - apply T; auto. congruence.
Qed.
Lemma tail_key enc k st r open bs st' : enc_ok enc -> simple_key k -> occ k -> st_ok st r open ->
  chain enc ((if node then [step_node H] else []) ++ [step_tagwriter H cfg]) k (set_allowed st (Some KeyTags)) = Ok (bs, st') ->
  exists w, wrt open true k r w r /\ wire 15 w bs /\ is_key w /\ st_ok (set_allowed st' None) r open.
Proof.
  intros EO Sk O So E.
  assert (E' : step_tagwriter H cfg enc k (chain enc []) (set_allowed st (Some KeyTags)) = Ok (bs, st')).
  { destruct node; cbn [app chain] in E; auto. destruct k; try contradiction; auto. }
  eapply tagwriter_key; eauto.
Qed.

Lemma chain_ok enc : enc_ok enc -> enc_ok (chain enc steps_of).
Proof.
  intros EO. assert (Hr : refs = true \/ refs = false) by (destruct refs; auto). unfold ModelEncode.steps_of. destruct Hr as [Hr|Hr]; rewrite Hr.
  - split.
    + intros v st r open bs st' O So E. cbn [app chain] in E. unfold step_references in E.
      destruct (deduplicate H v st) as [v0 s0] eqn:Ed.
      pose proof (dedup_st H refs root _ _ _ _ _ _ So O Ed) as So0.
      destruct (dedup_spec H root _ _ _ _ (proj1 (proj2 So)) O Ed) as (Ev & Ov & _ & _ & _ & D0).
      assert (T : (forall o, v0 = VRef o -> fresh refs o r) ->
                  chain enc ((if node then [step_node H] else []) ++ [step_tagwriter H cfg]) v0 s0 = Ok (bs, st') ->
                  exists w r', desc open false v r w r' /\ wire 15 w bs /\ EncodeFacts.st_ok H refs root st' r' open).
      { intros Fr Et.
        destruct (tail_ok enc v0 s0 r open bs st' EO Ov So0 Fr (fun _ => D0) Et) as (w & r' & Wr & Wi & So').
        exists w, r'. split; auto. econstructor; eauto. unfold rep_of. rewrite Hr. exact Ev. }
      destruct v0 as [| | | | | | |o]; try (apply T; auto; intros; discriminate).
      destruct (log_contains pyid (es_log s0) o) eqn:Lc.
      * clear T. unfold write_reference in E. apply bind_Ok in E as [sid [Es E]]. winv.
        destruct So0 as (L0 & Sn0 & A0). destruct (L0 Hr) as (Ln & Nd & Ic & Id & En).
        unfold log_get_serialized_id in Es. unfold pyid in *. destruct (dget Nat.eqb o _) as [i|] eqn:Di; [|discriminate].
        assert (Io : In o r). { destruct (in_dec Nat.eq_dec o r) as [|N]; auto. apply Id in N. congruence. }
        apply In_nth_error in Io as [j Hj]. destruct (En _ _ Hj) as (Dj & e & Ee & Eo). rewrite Di in Dj. injection Dj as ->.
        rewrite Ee in Es. assert (sid = j /\ e <> EFwd None) as [-> Ne] by (destruct e as [|[|]]; try discriminate; injection Es as <-; split; auto; discriminate).
        exists (WRef (N.of_nat j) None), r. split; [|split; [|split; auto]].
        -- econstructor; [unfold rep_of; rewrite Hr; exact Ev|]. constructor; auto. intros C. apply Ne, Eo, C.
        -- to_body. rewrite <- (app_nil_r (varint_bytes _)). constructor; [apply is_varint_bytes|constructor].
      * apply T; auto. intros o' [= <-] _. destruct So0 as (L0 & _). destruct (L0 Hr) as (_ & _ & _ & Id & _).
        apply Id. unfold log_contains, dmem, pyid in Lc. destruct (dget Nat.eqb o (log_ids (es_log s0))); auto; discriminate.
    + intros k st r open bs st' Sk O So E. cbn [app chain] in E. unfold step_references in E.
      destruct (deduplicate H k (set_allowed st (Some KeyTags))) as [v0 s0] eqn:Ed.
      assert (Sn : seen_ok H root (set_allowed st (Some KeyTags))) by (apply So).
      destruct (dedup_spec H root _ _ _ _ Sn O Ed) as (Ev & Ov & S0 & El & Ea & D0).
      assert (v0 = k).
      { destruct Ev as [<-|(A & B & _)]; auto. pose proof (hash_key_eq H k v0 A B) as X. destruct k; try contradiction; auto. }
      subst v0. cbn [es_log es_allowed set_allowed] in El, Ea.
      assert (So0 : EncodeFacts.st_ok H refs root (set_allowed s0 None) r open).
      { destruct So as (L & _ & _). split; [cbn [es_log set_allowed]; rewrite El; auto|]. split; auto. }
      assert (Es : s0 = set_allowed (set_allowed s0 None) (Some KeyTags)) by (destruct s0; cbn in *; subst; reflexivity).
      assert (E' : chain enc ((if node then [step_node H] else []) ++ [step_tagwriter H cfg]) k (set_allowed (set_allowed s0 None) (Some KeyTags)) = Ok (bs, st'))
        by (rewrite <- Es; destruct k; try contradiction; auto).
      destruct (tail_key enc k _ r open bs st' EO Sk Ov So0 E') as (w & Wr & Wi & Ik & So').
      exists w. split; auto. econstructor; [|exact Wr]. unfold rep_of. rewrite Hr. exact Ev.
  - cbn [app]. split.
    + intros v st r open bs st' O So E. destruct (tail_ok enc v st r open bs st' EO O So) as (w & r' & Wr & Wi & So'); auto.
      * intros o _ C. congruence.
      * congruence.
      * exists w, r'. split; auto. econstructor; [apply rep_refl|exact Wr].
    + intros k st r open bs st' Sk O So E. destruct (tail_key enc k st r open bs st' EO Sk O So E) as (w & Wr & Wi & Ik & So').
      exists w. split; auto. econstructor; [apply rep_refl|exact Wr].
Qed.

Lemma encode_ok depth : enc_ok (encode depth steps_of).
Proof.
  induction depth; [split; intros; discriminate|]. cbn [encode].
  assert (X : forall v, encode (S depth) steps_of v = chain (encode depth steps_of) steps_of v) by reflexivity.
  apply chain_ok in IHdepth. exact IHdepth.
Qed.

(** Whatever dumps returns is the header and an encoding of a description of the value. *)
Theorem sized_writes size depth bs : encode_sized size depth steps_of root = Ok bs ->
  exists w r body, desc [] false root [] w r /\ bs = header_bytes ++ body /\ wire 15 w body.
Proof.
  intros E. unfold encode_sized in E. apply bind_Ok in E as [[b st] [E1 E]]. injection E as <-.
  destruct (proj1 (encode_ok depth) _ _ [] [] _ _ (occ_root _ _) (st_sized _ _ _ _) E1) as (w & r & D & Wi & _).
  exists w, r, b. auto.
Qed.
Theorem dumps_writes depth bs : dumps_depth depth steps_of root = Ok bs ->
  exists w r body, desc [] false root [] w r /\ bs = header_bytes ++ body /\ wire 15 w body.
Proof. exact (sized_writes None depth bs). Qed.
Lemma document15 w body : wire 15 w body -> document w (header_bytes ++ body).
Proof.
  intros Wi. exists 15, [tag_byte kVersion], (varint_bytes 15), body. split; [lia|]. split; [apply tagged_i|].
  split; [apply is_varint_bytes|]. split; auto.
Qed.
Theorem sized_describes size depth bs : encode_sized size depth steps_of root = Ok bs ->
  exists w r, desc [] false root [] w r /\ document w bs.
Proof. intros E. apply sized_writes in E as (w & r & b & D & -> & Wi). exists w, r. split; auto. apply document15; auto. Qed.
Theorem dumps_describes depth bs : dumps_depth depth steps_of root = Ok bs ->
  exists w r, desc [] false root [] w r /\ document w bs.
Proof. intros E. apply dumps_writes in E as (w & r & b & D & -> & Wi). exists w, r. split; auto. apply document15; auto. Qed.
End Steps.
