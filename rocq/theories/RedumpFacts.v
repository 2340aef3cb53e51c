(** Lemmas for C69: what loads returns satisfies the invariants of its classes. *)
From Coq Require Import List NArith ZArith Bool Lia ZifyBool ZifyNat ZifyN.
From Verif Require Import Base Dict ModelTags ModelPrim SpecPrim PrimFacts PrimFacts3 SpecArray ModelArray ArrayFacts ArrayFacts3 ModelValue ValueFacts SpecNumber SpecKey KeyFacts SpecObject ModelObject ObjectFacts
  SpecObjectUse ModelObjectUse ObjectUseFacts SpecMap ModelMap MapFacts SpecBuffer ModelBuffer BufferFacts ModelHeap SpecWire ModelDecode SpecBuild DecodeFacts DecodeSound BuildFacts BuildCell SpecContents
  ContentsFacts ModelEncode SpecEncode SpecFail SpecGraph.
Import ListNotations.
Open Scope nat_scope.
Notation H st := (length (ds_heap st)).

Definition name_repr (fr : N -> list N) : Prop := forall bits m e, ieee bits = Finite m e -> float_int bits = None ->
  ~ digits (fr bits) /\ Forall scalar (fr bits).

Lemma proto_canonical e : ename_str (for_error_name (proto_name e)) = proto_name e.
Proof. destruct e as [[]|]; reflexivity. Qed.
Section Good.
Variable dcfg : ModelDecode.dcfg.

(** * The invariant *)
Definition good_val (h : heap) (v : val) : Prop :=
  match v with
  | VInt z => ~ big z
  | VStr s => Forall scalar s
  | VFloat b => (b < 2 ^ 64)%N
  | VRef o => o < length h
  | _ => True
  end.
Definition good_item (h : heap) (p : list N * val) : Prop :=
  name_key (fst p) /\ Forall scalar (fst p) /\ snd p <> VHole /\ good_val h (snd p).
Definition good_elem (h : heap) (e : option val) : Prop := match e with Some v => v <> VHole /\ good_val h v | None => True end.
Definition good_state (h : heap) (st : ustate val) : Prop :=
  (Z.of_nat (length (elems st)) < 2 ^ 32)%Z /\ Forall (good_elem h) (elems st) /\ NoDup (dkeys (named st)) /\ Forall (good_item h) (named st).
Definition good_jo (h : heap) (o : jsobj val) : Prop := exists st, holds o st /\ good_state h st.
Definition good_view (h : heap) (b : nat) (w : view) : Prop :=
  view_ok w /\ (exists y, nth_error h b = Some y /\ is_buffer y = true) /\
  (bk_data (backing_of h b) <> None -> view_in_range (backing_of h b) w = true).
Definition good_obj (h : heap) (x : obj) : Prop :=
  match x with
  | OMap m => cinv no_bytes (@fst val val) m /\ Forall (fun p => good_val h (fst p) /\ good_val h (snd p)) (map snd m)
  | OSet m => cinv no_bytes (fun k : val => k) m /\ Forall (good_val h) (map snd m)
  | OObject o | OArray o => good_jo h o
  | ORegExp s f => Forall scalar s /\ regexp_new s f = Ok (ORegExp s f)
  | OError n m s c => (opt_all (Forall scalar) m /\ opt_all (Forall scalar) s /\ good_val h c) /\ ename_str (for_error_name n) = n /\ m <> None
  | ODate d => exists b, (b < 2 ^ 64)%N /\ c_date dcfg b = inl d
  | OBuffer b => bytes_ok (jb_data b) /\ (zlen (jb_data b) <= jb_max b < 2 ^ 32)%Z /\
      (jb_resizable b = false -> jb_max b = zlen (jb_data b)) /\ jb_readonly b = false
  | OShared id | OTransfer id | OSharedRef id => (id < 2 ^ 32)%N
  | OView b w => good_view h b w
  | _ => False
  end.
Definition good (st : dstate) : Prop :=
  Forall (good_obj (ds_heap st)) (ds_heap st) /\ Forall (good_val (ds_heap st)) (ds_log st).

(** Objects are added, and buffers stay. *)
Definition grows (h h' : heap) : Prop :=
  length h <= length h' /\ forall b y, nth_error h b = Some y -> is_buffer y = true -> nth_error h' b = Some y.
Lemma grows_refl h : grows h h.
Proof. split; auto. Qed.
Lemma grows_trans a b c : grows a b -> grows b c -> grows a c.
Proof. intros [A B] [C D]. split; [lia|]. auto. Qed.
Lemma grows_app h x : grows h (h ++ [x]).
Proof. split; [rewrite app_length; lia|]. intros b y E _. rewrite nth_error_app1; auto. apply nth_error_Some. congruence. Qed.
Lemma grows_val h h' v : grows h h' -> good_val h v -> good_val h' v.
Proof. intros [A _]. destruct v; cbn; auto. lia. Qed.
Lemma grows_elem h h' e : grows h h' -> good_elem h e -> good_elem h' e.
Proof. intros G. destruct e; cbn; auto. intros [A B]. split; auto. eapply grows_val; eauto. Qed.
Lemma grows_jo h h' o : grows h h' -> good_jo h o -> good_jo h' o.
Proof.
  intros G (st & Ho & L & E & N & F). exists st. split; auto. split; auto. split; [|split; auto].
  - eapply Forall_impl; [|exact E]. intros a. apply grows_elem, G.
  - eapply Forall_impl; [|exact F]. intros a (A & B & C & D). repeat split; auto. eapply grows_val; eauto.
Qed.
Lemma grows_backing h h' b y : grows h h' -> nth_error h b = Some y -> is_buffer y = true -> backing_of h' b = backing_of h b.
Proof. intros [_ G] E B. unfold backing_of. rewrite (G _ _ E B), E. reflexivity. Qed.
Lemma grows_obj h h' x : grows h h' -> good_obj h x -> good_obj h' x.
Proof.
  intros G. destruct x; cbn; auto.
  - intros [A B]. split; auto. eapply Forall_impl; [|exact B]. intros p [C D]. split; eapply grows_val; eauto.
  - intros [A B]. split; auto. eapply Forall_impl; [|exact B]. intros p. apply grows_val, G.
  - apply grows_jo, G.
  - apply grows_jo, G.
  - intros ((A & B & C) & D). split; [|exact D]. split; auto. split; auto. eapply grows_val; eauto.
  - intros (A & (y & E & B) & C). split; auto. rewrite (grows_backing _ _ _ _ G E B). split; auto. exists y. split; auto. apply G; auto.
Qed.

(** * The steps keep it *)
Lemma good_record v st : good st -> good_val (ds_heap st) v -> good (record v st) /\ grows (ds_heap st) (ds_heap (record v st)).
Proof. intros [A B] C. split; [|apply grows_refl]. split; cbn; auto. apply Forall_app. auto. Qed.
Lemma good_alloc x st : good st -> good_obj (ds_heap st) x ->
  good (snd (alloc x st)) /\ grows (ds_heap st) (ds_heap (snd (alloc x st))).
Proof.
  intros [A B] C. pose proof (grows_app (ds_heap st) x) as G. split; [|exact G]. split; cbn.
  - apply Forall_app. split; [|repeat constructor; eapply grows_obj; eauto]. eapply Forall_impl; [|exact A]. intros a. apply grows_obj, G.
  - eapply Forall_impl; [|exact B]. intros a. apply grows_val, G.
Qed.
Lemma good_begun x st : good st -> good_obj (ds_heap st) x -> good (begun x st) /\ grows (ds_heap st) (ds_heap (begun x st)).
Proof.
  intros A B. destruct (good_alloc x st A B) as [[C D] G]. split; [|exact G]. split; [exact C|].
  cbn. apply Forall_app. split; [exact D|]. repeat constructor. cbn. rewrite app_length. cbn. lia.
Qed.
Lemma heap_set_grows h i x y : nth_error h i = Some x -> is_buffer x = false -> grows h (heap_set h i y).
Proof.
  intros E B. split; [rewrite heap_set_length; lia|]. intros b z Z1 Z2. rewrite set_nth_other; auto. intros ->. congruence.
Qed.
Lemma Forall_heap_set (P : obj -> Prop) y h : forall i, Forall P h -> P y -> Forall P (heap_set h i y).
Proof. induction h as [|x h IH]; intros [|i] F Q; cbn; auto; inversion F; subst; constructor; auto. Qed.
Lemma good_store i x y st : good st -> nth_error (ds_heap st) i = Some x -> is_buffer x = false -> good_obj (ds_heap st) y ->
  good (store i y st) /\ grows (ds_heap st) (ds_heap (store i y st)).
Proof.
  intros [A B] E NB G. pose proof (heap_set_grows _ _ _ y E NB) as Gr. split; [|exact Gr]. split; cbn.
  - apply Forall_heap_set; [|eapply grows_obj; eauto]. eapply Forall_impl; [|exact A]. intros a. apply grows_obj, Gr.
  - eapply Forall_impl; [|exact B]. intros a. apply grows_val, Gr.
Qed.
Lemma good_str enc s st : good st -> Forall scalar s -> good (build_str enc s st) /\ grows (ds_heap st) (ds_heap (build_str enc s st)).
Proof. intros G F. unfold build_str. destruct (stag_eqb _ _); [apply good_record; auto|split; [auto|apply grows_refl]]. Qed.
Definition field_scalar (f : option (stag * list N)) : Prop := match f with Some (_, s) => Forall scalar s | None => True end.
Lemma good_field f st s st' : good st -> field_scalar f -> build_field f st = (s, st') ->
  good st' /\ grows (ds_heap st) (ds_heap st') /\ opt_all (Forall scalar) s.
Proof.
  intros G F E. destruct f as [[enc t]|]; cbn in E, F; injection E as <- <-.
  - destruct (good_str enc t st G F) as [A B]. auto.
  - split; auto. split; [apply grows_refl|exact I].
Qed.

(** ** Views *)
Lemma good_build_view b v st x st' y : good st -> nth_error (ds_heap st) b = Some y -> is_buffer y = true ->
  build_view b v st = Ok (x, st') -> good st' /\ grows (ds_heap st) (ds_heap st') /\ good_val (ds_heap st') x.
Proof.
  intros G E B V. assert (L : b < H st) by (apply nth_error_Some; congruence).
  destruct v as [v|]; cbn [build_view] in V.
  2:{ injection V as <- <-. split; auto. split; [apply grows_refl|exact L]. }
  apply bind_Ok in V as [w [W V]]. rewrite alloc_begun in V. injection V as <- <-.
  assert (GV : good_obj (ds_heap st) (OView b w)).
  { cbn. split; [|split; [eauto|]].
    - unfold view_from_bytes in W. destruct (negb _); [discriminate W|]. destruct (match (if N.odd (wv_flags v) then None else _) with Some n => _ | None => _ end); [discriminate W|].
      apply bind_Ok in W as [w' [W1 W]]. apply view_new_ok in W1 as [VO _].
      destruct (bk_data _); [|injection W as <-; exact VO]. destruct (_ || _); [discriminate W|]. injection W as <-. exact VO.
    - intros D. destruct (bk_data (backing_of (ds_heap st) b)) as [d|] eqn:Ed; [clear D; rename Ed into D|congruence]. destruct (from_bytes_ok _ _ _ _ _ _ _ D W) as ((O0 & OM & FT & LC) & VO & T & OS & LN).
      destruct (view_memory (backing_of (ds_heap st) b) w) as [r c] eqn:M. pose proof (view_memory_spec _ _ _ _ VO M) as (S & _).
      unfold view_in_range. rewrite M. cbn [fst].
      apply S. unfold data_of. rewrite D, T, OS. rewrite LN. destruct (if N.odd (wv_flags v) then None else Some (Z.of_N (wv_len v))) as [n|]; [|exact FT].
      destruct LC as [A C]. replace (n / isize (wv_tag v) * isize (wv_tag v))%Z with n; [exact FT|].
      pose proof (isize_pos (wv_tag v)). pose proof (Z.div_mod n (isize (wv_tag v))). nia. }
  destruct (good_begun _ _ G GV) as [A C]. split; auto. split; auto. cbn. rewrite app_length. cbn. lia.
Qed.

(** ** Containers *)
Lemma dec_digits_scalar f : forall n acc, Forall scalar acc -> Forall scalar (dec_digits f n acc).
Proof.
  induction f as [|f IH]; intros n acc F; cbn [dec_digits]; auto. cbv zeta.
  assert (Forall scalar ((48 + n mod 10)%N :: acc)).
  { constructor; auto. unfold scalar. pose proof (N.mod_upper_bound n 10). lia. }
  destruct (n <? 10)%N; auto.
Qed.
Lemma dec_Z_scalar z : Forall scalar (dec_Z z).
Proof.
  unfold dec_Z, dec_N. destruct (z <? 0)%Z; [constructor; [unfold scalar; lia|]|]; apply dec_digits_scalar; constructor.
Qed.
Lemma norm_name k s : name_repr (c_float_repr dcfg) -> (forall t, k = KStr t -> Forall scalar t) ->
  normalise_property_key (c_float_repr dcfg) k = Ok (PStr s) -> name_key s /\ Forall scalar s.
Proof.
  intros FR KS E. split.
  - intros fr. pose proof (normalise_idempotent (c_float_repr dcfg) k (PStr s)) as N. cbn [key_of] in N.
    change (normalise_property_key fr (KStr s)) with (normalise_property_key (c_float_repr dcfg) (KStr s)). apply N; auto.
    intros bits m e I F. apply (FR bits m e I F).
  - destruct k as [t|z|b]; cbn [normalise_property_key] in E.
    + specialize (KS t eq_refl). apply bind_Ok in E as [n [C E]]. destruct n as [n|]; [|injection E as <-; exact KS].
      destruct (normalise_int_spec (Z.of_N n)) as [[A X]|[[A [B X]]|[A [B X]]]]; rewrite X in E; try discriminate E.
      injection E as <-. apply dec_Z_scalar.
    + destruct (normalise_int_spec z) as [[A X]|[[A [B X]]|[A [B X]]]]; rewrite X in E; try discriminate E.
      injection E as <-. apply dec_Z_scalar.
    + destruct (float_int b) as [z|] eqn:FI.
      * destruct (normalise_int_spec z) as [[A X]|[[A [B X]]|[A [B X]]]]; rewrite X in E; try discriminate E.
        injection E as <-. apply dec_Z_scalar.
      * injection E as <-. destruct (ieee b) as [|[]|m e] eqn:IE; try (repeat constructor; unfold scalar; lia).
        apply (FR b m e IE FI).
Qed.
Lemma place_forall (P : option val -> Prop) l k v : Forall P l -> P None -> P v -> Forall P (place l k v).
Proof.
  intros F N V. unfold place. apply Forall_app. split.
  - assert (F' : Forall P (l ++ repeat None (k - length l))).
    { apply Forall_app. split; auto. apply Forall_forall. intros x I. apply repeat_spec in I. subst. auto. }
    rewrite <- (firstn_skipn k) in F'. apply Forall_app in F'. tauto.
  - constructor; auto. rewrite <- (firstn_skipn (S k)) in F. apply Forall_app in F. tauto.
Qed.
Lemma dset_forall {K V} (eqb : K -> K -> bool) (P : K * V -> Prop) k v : forall d, Forall P d -> P (k, v) -> (forall a w, P (a, w) -> eqb k a = true -> P (a, v)) -> Forall P (dset eqb k v d).
Proof.
  intros d F Pk R. induction F as [|[a w] d A F IH]; cbn; [auto|]. destruct (eqb k a) eqn:E; constructor; auto. eauto.
Qed.
Lemma ddel_forall {K V} (eqb : K -> K -> bool) (P : K * V -> Prop) k : forall d, Forall P d -> Forall P (ddel eqb k d).
Proof. intros d F. induction F as [|[a w] d A F IH]; cbn; [auto|]. destruct (eqb k a) eqn:E; auto. Qed.

Lemma good_store_state h st q v : good_state h st -> pok q -> (forall s, q = PStr s -> name_key s /\ Forall scalar s) -> good_val h v ->
  good_state h (SpecObjectUse.store st q (elem_of v)).
Proof.
  intros (L & E & N & F) P Nm G. destruct q as [s|z]; unfold good_state; cbn [SpecObjectUse.store elems named with_named].
  - destruct (Nm s eq_refl) as [A B]. split; auto. split; auto.
    assert (X : v = VHole \/ elem_of v = Some v) by (destruct v; cbn; auto).
    assert (Hd : v <> VHole -> NoDup (dkeys (dset listN_eqb s v (named st))) /\ Forall (good_item h) (dset listN_eqb s v (named st))).
    { intros NH. split; [apply dset_NoDup; auto; apply listN_eqb_spec|]. apply dset_forall; auto; [repeat split; auto|].
      intros a w (C1 & C2 & _ & _) _. repeat split; auto. }
    destruct X as [->|X]; [cbn|rewrite X].
    + split; [apply ddel_NoDup; auto; apply listN_eqb_spec|apply ddel_forall; auto].
    + apply Hd. intros ->. discriminate X.
  - cbn in P. rewrite place_length. split; [lia|]. split; auto. apply place_forall; auto; [exact I|]. destruct v; cbn; auto; split; auto; discriminate.
Qed.
Lemma put_entry_forall (P : val * val -> Prop) l k v l' : Forall P l -> P (k, v) -> put_entry no_bytes l k v l' -> Forall P l'.
Proof.
  intros F Q E. destruct E as [a k' v' b -> _|_].
  - apply Forall_app in F as [A B]. inversion B; subst. apply Forall_app. auto.
  - apply Forall_app. auto.
Qed.
Lemma add_member_forall (P : val -> Prop) l k l' : Forall P l -> P k -> add_member no_bytes l k l' -> Forall P l'.
Proof.
  intros F Q E. destruct E as [a k' b -> _|_].
  - apply Forall_app in F as [A B]. inversion B; subst. apply Forall_app. auto.
  - apply Forall_app. auto.
Qed.
Lemma put_jo_good h acc o k v acc' : name_repr (c_float_repr dcfg) -> (acc = OObject o \/ acc = OArray o) -> good_jo h o ->
  (forall s, k = VStr s -> Forall scalar s) -> good_val h v -> put dcfg acc k v = Ok acc' -> good_obj h acc'.
Proof.
  intros FR A (st & Ho & Gs) Gk Gv P. destruct (put_holds dcfg acc o k v acc' st A Ho P) as (o' & q & X & Y & (y & AK & Q) & Ho').
  assert (good_jo h o').
  { exists (SpecObjectUse.store st q (elem_of v)). split; auto. apply good_store_state; auto.
    - eapply norm_pok; eauto.
    - intros s ->. eapply norm_name; eauto. intros t ->. inversion AK; subst. apply Gk. reflexivity. }
  destruct A as [->| ->]; [rewrite (X eq_refl)|rewrite (Y eq_refl)]; auto.
Qed.
Lemma put_good h acc k v acc' : name_repr (c_float_repr dcfg) -> good_obj h acc -> good_val h k -> good_val h v ->
  put dcfg acc k v = Ok acc' -> good_obj h acc'.
Proof.
  intros FR G Gk Gv P.
  assert (J : forall o, (acc = OObject o \/ acc = OArray o) -> good_jo h o -> good_obj h acc').
  { intros o A Go. eapply put_jo_good; eauto. intros s ->. exact Gk. }
  destruct acc; try discriminate P; cbn [good_obj] in G; try solve [eapply J; [|exact G]; auto].
  cbn [put] in P. apply bind_Ok in P as [m1 [P E]]. injection E as <-. destruct G as [I F]. pose proof (jm_set_spec no_bytes m k v I) as S0. rewrite P in S0.
  destruct S0 as (I1 & NH & PE). split; auto. refine (put_entry_forall _ _ k v _ F _ PE). auto.
Qed.
Lemma put_member_good h acc v acc' : good_obj h acc -> good_val h v -> put_member acc v = Ok acc' -> good_obj h acc'.
Proof.
  intros G Gv P. destruct acc; try discriminate P; cbn [good_obj] in G.
  cbn [put_member] in P. apply bind_Ok in P as [m1 [P E]]. injection E as <-. destruct G as [I F]. pose proof (js_add_spec no_bytes m v I) as S0. rewrite P in S0.
  destruct S0 as (I1 & NH & PE). split; auto. eapply add_member_forall; eauto.
Qed.
Lemma good_empty h : good_jo h jo_empty.
Proof. exists (mkUState [] [] None). split; [apply holds_empty|]. split; [cbn; lia|]. repeat split; constructor. Qed.

(** * What the wire format guarantees *)
Lemma utf16_scalars s bs : utf16_string s bs -> Forall scalar s.
Proof. intros U. induction U as [|c s b bs C U IH]; constructor; auto. destruct C; unfold scalar in *; lia. Qed.
Lemma wstring_scalar enc s bs : wstring enc s bs -> Forall scalar s.
Proof.
  intros [? ? ? [-> F] _|? ? ? U _|? ? ? U _|? ? ? U _]; [|eapply utf16_scalars; eauto|apply utf8_string_scalar in U; auto|apply utf8_string_scalar in U; auto].
  eapply Forall_impl; [|exact F]. unfold scalar. intros; lia.
Qed.
Lemma wfield_scalar e f bs : wfield e f bs -> field_scalar f.
Proof. intros []; cbn; auto. eapply wstring_scalar; eauto. Qed.
Lemma small_not_big z : (Z.abs z < 2 ^ 64)%Z -> ~ big z.
Proof.
  unfold big. intros L. assert (L' : (Z.abs_N z < 2 ^ 64)%N) by lia. assert (X : (2 ^ 64 <= 2 ^ (8 * (2 ^ 30 - 1) - 1))%N) by (apply N.pow_le_mono_r; [discriminate|lia]).
  intros B. apply (N.lt_irrefl (Z.abs_N z)). eapply N.lt_le_trans; [exact L'|]. etransitivity; [exact X|exact B].
Qed.
Lemma wbigint_not_big z bs : (lenN bs < 2 ^ 30)%N -> wbigint z bs -> ~ big z.
Proof.
  intros L W. inversion W as [f vb digits z' V B E Ez Eb]. subst. unfold big. rewrite lenN_app in L. assert (V1 : (1 <= lenN vb)%N).
  { pose proof (is_varint_length _ _ V). unfold lenN. lia. }
  pose proof (of_le_bound digits B) as Q. assert (Z.abs_N (if N.odd f then - Z.of_N (of_le digits) else Z.of_N (of_le digits))%Z = of_le digits) as A by (destruct (N.odd f); clear; lia).
  assert (X : (256 ^ lenN digits <= 2 ^ (8 * (2 ^ 30 - 1) - 1))%N).
  { replace (256 ^ lenN digits)%N with (2 ^ (8 * lenN digits))%N by (rewrite N.pow_mul_r; reflexivity). apply N.pow_le_mono_r; [discriminate|]. clear Q. lia. }
  rewrite A. intros G.
  apply (N.lt_irrefl (of_le digits)). eapply N.lt_le_trans; [exact Q|]. etransitivity; [exact X|exact G].
Qed.

(** * What building makes *)
Hypothesis FR : name_repr (c_float_repr dcfg).
Hypothesis DC : forall t, c_const dcfg t = default_const t.
Variable version : N.
Definition result_good (st : dstate) (v : val) (st' : dstate) : Prop :=
  good st' /\ grows (ds_heap st) (ds_heap st') /\ good_val (ds_heap st') v.
Definition acc_good (st : dstate) (acc : obj) (st' : dstate) : Prop :=
  good st' /\ grows (ds_heap st) (ds_heap st') /\ good_obj (ds_heap st') acc.
Definition good_w w := forall bs st v st', wire version w bs -> (lenN bs < 2 ^ 30)%N -> good st -> build dcfg w st = Ok (v, st') -> result_good st v st'.
Definition good_vs vs := forall bs acc st acc' st', wseq version vs bs -> (lenN bs < 2 ^ 30)%N -> good st -> good_obj (ds_heap st) acc ->
  (build_members dcfg vs acc st = Ok (acc', st') -> acc_good st acc' st') /\ (forall k, build_elems dcfg vs k acc st = Ok (acc', st') -> (k + vcount vs < 2 ^ 64)%N -> acc_good st acc' st').
Definition good_ps ps := forall bs acc st acc' st', wprs version ps bs -> (lenN bs < 2 ^ 30)%N -> good st -> good_obj (ds_heap st) acc ->
  build_pairs dcfg ps acc st = Ok (acc', st') -> acc_good st acc' st'.

Lemma result_filled st x acc st1 : good st -> is_buffer x = false -> keeps (begun x st) st1 -> acc_good (begun x st) acc st1 ->
  result_good st (VRef (H st)) (store (H st) acc st1).
Proof.
  intros G NB [K1 K2] (A & B & C). rewrite begun_len in K1, K2.
  assert (E : nth_error (ds_heap st1) (H st) = Some x). { rewrite K2 by lia. cbn. rewrite nth_error_app2, Nat.sub_diag by lia. reflexivity. }
  destruct (good_store (H st) x acc st1 A E NB C) as [P Q]. split; [exact P|]. split.
  - eapply grows_trans; [|exact Q]. eapply grows_trans; [|exact B]. apply grows_app.
  - cbn. rewrite heap_set_length. lia.
Qed.
Lemma wire_nonempty w bs : wire version w bs -> (1 <= lenN bs)%N.
Proof. intros [w' tb b (k & ->) _]. rewrite !lenN_app. unfold lenN. cbn. lia. Qed.
Lemma wseq_count vs : forall bs, wseq version vs bs -> (vcount vs <= lenN bs)%N.
Proof.
  induction vs as [|w r IH]; intros bs W; inversion W; subst; cbn [vcount]; [lia|]. rewrite lenN_app.
  match goal with X : wire _ _ _ |- _ => apply wire_nonempty in X end. match goal with X : wseq _ _ _ |- _ => apply IH in X end. lia.
Qed.
Lemma good_leaf v st : good st -> good_val (ds_heap st) v -> result_good st v st.
Proof. intros A B. split; auto. split; auto. apply grows_refl. Qed.
Lemma good_recorded v st : good st -> good_val (ds_heap st) v -> result_good st v (record v st).
Proof. intros A B. destruct (good_record v st A B). split; auto. Qed.
Lemma good_new x st : good st -> good_obj (ds_heap st) x -> result_good st (VRef (H st)) (begun x st).
Proof. intros A B. destruct (good_begun x st A B) as [C D]. split; auto. split; auto. cbn. rewrite app_length. cbn. lia. Qed.
Lemma result_after st s1 v st' : grows (ds_heap st) (ds_heap s1) -> result_good s1 v st' -> result_good st v st'.
Proof. intros A (B & C & D). split; auto. split; auto. eapply grows_trans; eauto. Qed.

Theorem build_good : (forall w, good_w w) /\ (forall vs, good_vs vs) /\ (forall ps, good_ps ps).
Proof.
  apply wval_mutind.
  - intros t bs st v st' W L G B. injection B as <- <-. apply good_leaf; auto. rewrite DC. destruct t; exact I.
  - intros z bs st v st' W L G B. injection B as <- <-. apply good_leaf; auto. cbn. inversion W as [? tb b _ Wb]; subst. inversion Wb; subst. apply small_not_big. lia.
  - intros z bs st v st' W L G B. injection B as <- <-. apply good_leaf; auto. cbn. inversion W as [? tb b _ Wb]; subst. inversion Wb as [| |? ? (_ & _ & V)| | | | | | | | | | | | | | | | | | |]; subst. apply small_not_big. lia.
  - intros z bs st v st' W L G B. injection B as <- <-. apply good_leaf; auto. cbn. inversion W as [? tb b _ Wb]; subst. inversion Wb as [| | |? ? [V _]| | | | | | | | | | | | | | | | | |]; subst. exact V.
  - intros z bs st v st' W L G B. injection B as <- <-. apply good_leaf; auto. cbn. inversion W as [? tb b _ Wb]; subst. rewrite lenN_app in L. inversion Wb; subst. eapply wbigint_not_big; [|eauto]. lia.
  - intros enc s bs st v st' W L G B. injection B as <- <-. inversion W as [? tb b _ Wb]; subst. inversion Wb; subst. match goal with X : wstring _ _ _ |- _ => apply wstring_scalar in X end.
    destruct (good_str enc s st G) as [A C]; auto. split; auto.
  - intros z bs st v st' W L G B. injection B as <- <-. apply good_recorded; auto. exact I.
  - intros z bs st v st' W L G B. injection B as <- <-. apply good_recorded; auto. cbn. inversion W as [? tb b _ Wb]; subst. inversion Wb as [| | | | | | |? ? [V _]| | | | | | | | | | | | | |]; subst. exact V.
  - intros z bs st v st' W L G B. injection B as <- <-. apply good_recorded; auto. cbn. inversion W as [? tb b _ Wb]; subst. rewrite lenN_app in L. inversion Wb; subst. eapply wbigint_not_big; [|eauto]. lia.
  - intros b bs st v st' W L G B. cbn [build] in B. destruct (c_date dcfg b) as [d|] eqn:E; [|discriminate B]. rewrite alloc_begun in B. injection B as <- <-.
    apply good_new; auto. exists b. split; auto. inversion W as [? tb bb _ Wb]; subst. inversion Wb as [| | | | | | | | |? ? [V _]| | | | | | | | | | | |]; subst. exact V.
  - intros enc s fl bs st v st' W L G B. cbn [build] in B. cbv zeta in B. apply bind_Ok in B as [o [R B]]. rewrite alloc_begun in B. injection B as <- <-.
    inversion W as [? tb bb _ Wb]; subst. inversion Wb; subst. match goal with X : wstring _ _ _ |- _ => apply wstring_scalar in X as Fs end.
    destruct (good_str enc s st G Fs) as [A C]. eapply result_after; [exact C|]. apply good_new; auto.
    unfold regexp_new in R. destruct (negb (N.land fl 16 =? 0)%N && negb (N.land fl 256 =? 0)%N) eqn:E; [discriminate R|]. injection R as <-.
    cbn [good_obj]. split.
    + destruct s; auto. repeat constructor; unfold scalar; lia.
    + unfold regexp_new. rewrite E. destruct s; reflexivity.
  - intros ps IH bs st v st' W L G B. rewrite build_map in B. rewrite alloc_begun in B. apply bind_Ok in B as [[o s1] [B1 B]]. injection B as <- <-.
    inversion W as [? tb b _ Wb]; subst. inversion Wb; subst. rewrite !lenN_app in L.
    destruct (good_begun (OMap []) st G) as [G1 _]; [cbn; split; [apply cinv_nil|constructor]|].
    apply (result_filled _ (OMap [])); auto; [eapply pairs_keeps; eauto|]. eapply IH; eauto; [lia|]. cbn; split; [apply cinv_nil|constructor].
  - intros vs IH bs st v st' W L G B. rewrite build_set in B. rewrite alloc_begun in B. apply bind_Ok in B as [[o s1] [B1 B]]. injection B as <- <-.
    inversion W as [? tb b _ Wb]; subst. inversion Wb; subst. rewrite !lenN_app in L.
    destruct (good_begun (OSet []) st G) as [G1 _]; [cbn; split; [apply cinv_nil|constructor]|].
    apply (result_filled _ (OSet [])); auto; [eapply members_keeps; eauto|].
    assert (L1 : (lenN bs < 2 ^ 30)%N) by lia. assert (Ge : good_obj (ds_heap (begun (OSet []) st)) (OSet [])) by (cbn; split; [apply cinv_nil|constructor]).
    match goal with X : wseq _ _ _ |- _ => exact (proj1 (IH bs (OSet []) _ o s1 X L1 G1 Ge) B1) end.
  - intros ps IH bs st v st' W L G B. rewrite build_object in B. rewrite alloc_begun in B. apply bind_Ok in B as [[o s1] [B1 B]]. injection B as <- <-.
    inversion W as [? tb b _ Wb]; subst. inversion Wb; subst. rewrite !lenN_app in L.
    destruct (good_begun (OObject jo_empty) st G (good_empty _)) as [G1 _].
    apply (result_filled _ (OObject jo_empty)); auto; [eapply pairs_keeps; eauto|]. eapply IH; eauto; [lia|]. apply good_empty.
  - intros vs IHv ps IHp bs st v st' W L G B. rewrite build_dense in B. rewrite alloc_begun in B. apply bind_Ok in B as [[o s1] [B1 B]]. apply bind_Ok in B as [[o2 s2] [B2 B]]. injection B as <- <-.
    inversion W as [? tb b _ Wb]; subst. inversion Wb; subst. rewrite !lenN_app in L.
    destruct (good_begun (OArray jo_empty) st G (good_empty _)) as [G1 _].
    apply (result_filled _ (OArray jo_empty)); auto; [eapply keeps_trans; [eapply elems_keeps|eapply pairs_keeps]; eauto|].
    match goal with X : wseq _ _ ?c |- _ => pose proof (wseq_count _ _ X) as Lc; assert (Lx : (lenN c < 2 ^ 30)%N) by lia; pose proof (proj2 (IHv c (OArray jo_empty) _ o s1 X Lx G1 (good_empty _))) as Q end.
    destruct (Q 0%N B1) as (A1 & A2 & A3); [lia|].
    match goal with X : wprs _ _ ?c |- _ => destruct (IHp c _ _ _ _ X ltac:(lia) A1 A3 B2) as (C1 & C2 & C3) end.
    split; auto. split; auto. eapply grows_trans; eauto.
  - intros n ps IH bs st v st' W L G B. rewrite build_sparse in B. rewrite alloc_begun in B. apply bind_Ok in B as [o [P B]]. apply bind_Ok in B as [[o2 s1] [B1 B]]. injection B as <- <-.
    inversion W as [? tb b _ Wb]; subst. inversion Wb; subst. rewrite !lenN_app in L.
    destruct (good_begun (OArray jo_empty) st G (good_empty _)) as [G1 _].
    apply (result_filled _ (OArray jo_empty)); auto; [eapply pairs_keeps; eauto|]. eapply IH; eauto; [lia|].
    destruct (0 <? n)%N eqn:Z0; [|injection P as <-; apply good_empty].
    refine (put_jo_good _ _ jo_empty _ _ _ FR (or_intror eq_refl) (good_empty _) _ _ P); [discriminate|exact I].
  - intros name msg stack bs st v st' W L G B. cbn [build] in B. destruct (build_field msg st) as [m s1] eqn:F1.
    destruct (build_field stack s1) as [k s2] eqn:F2. rewrite alloc_begun in B. injection B as <- <-.
    inversion W as [? tb b _ Wb]; subst. inversion Wb; subst. repeat match goal with X : wfield _ _ _ |- _ => apply wfield_scalar in X end.
    destruct (good_field msg _ _ _ G ltac:(assumption) F1) as (A1 & A2 & A3). destruct (good_field stack _ _ _ A1 ltac:(assumption) F2) as (C1 & C2 & C3).
    eapply result_after; [eapply grows_trans; eauto|]. apply good_new; auto. cbn [good_obj]. split; [split; [destruct m; cbn in *; auto|split; [exact C3|exact I]]|]. split; [apply proto_canonical|discriminate].
  - intros name msg stack c IH late bs st v st' W L G B. rewrite build_errorc in B. destruct (build_field msg st) as [m s1] eqn:F1.
    destruct (build_field stack s1) as [k s2] eqn:F2. rewrite alloc_begun in B. apply bind_Ok in B as [[cv s3] [B1 B]].
    destruct (build_field late s3) as [l s4] eqn:F3. injection B as <- <-.
    inversion W as [? tb b _ Wb]; subst. inversion Wb; subst. repeat match goal with X : wfield _ _ _ |- _ => apply wfield_scalar in X end. rewrite !lenN_app in L.
    destruct (good_field msg _ _ _ G ltac:(assumption) F1) as (A1 & A2 & A3). destruct (good_field stack _ _ _ A1 ltac:(assumption) F2) as (C1 & C2 & C3).
    assert (M : opt_all (Forall scalar) (message_of m)) by (destruct m; cbn in *; auto).
    destruct (good_begun (OError (proto_name name) (message_of m) k VNone) s2 C1) as [D1 D2]; [cbn [good_obj]; split; [split; [exact M|split; [exact C3|exact I]]|]; split; [apply proto_canonical|discriminate]|].
    match goal with X : wire _ _ ?y |- _ => destruct (IH y _ _ _ X ltac:(lia) D1 B1) as (E1 & E2 & E3) end.
    assert (K : keeps (begun (OError (proto_name name) (message_of m) k VNone) s2) s3) by (apply (proj1 (build_news dcfg) c) in B1; apply B1).
    pose proof (keeps_field _ _ _ _ F3) as K3. destruct (good_field late _ _ _ E1 ltac:(assumption) F3) as (X1 & X2 & X3).
    eapply result_after; [eapply grows_trans; [exact A2|exact C2]|]. eapply (result_filled _ (OError (proto_name name) (message_of m) k VNone)); auto.
    + eapply keeps_trans; eauto.
    + split; auto. split; [eapply grows_trans; eauto|]. cbn [good_obj]. split; [|split; [apply proto_canonical|discriminate]]. split; auto. split; [destruct k; cbn in *; auto|]. eapply grows_val; eauto.
  - intros b v bs st x st' W L G B. cbn [build] in B. destruct (build_buf b st) as [j s] eqn:E.
    inversion W as [? tb bb _ Wb]; subst. inversion Wb; subst.
    assert (exists y, nth_error (ds_heap s) j = Some y /\ is_buffer y = true /\ good s /\ grows (ds_heap st) (ds_heap s)) as (y & Ey & By & Gs & Gr).
    { match goal with X : wbufb _ _ |- _ => destruct X as [d lb V D|d mx lb mb V V2 Le D|i ib V|i ib V] end; cbn [build_buf] in E.
      - rewrite alloc_begun in E. injection E as <- <-. eexists. split; [cbn; rewrite nth_error_app2, Nat.sub_diag by lia; reflexivity|]. split; [reflexivity|].
        apply good_begun; auto. cbn. destruct V as (_ & _ & V). unfold zlen, lenN in *. split; auto. split; [lia|auto].
      - rewrite alloc_begun in E. injection E as <- <-. eexists. split; [cbn; rewrite nth_error_app2, Nat.sub_diag by lia; reflexivity|]. split; [reflexivity|].
        apply good_begun; auto. cbn. destruct V2 as (_ & _ & V2). unfold zlen, lenN in *. split; auto. split; [lia|]. split; [discriminate|reflexivity].
      - cbn [alloc] in E. injection E as <- <-. eexists. split; [cbn; rewrite nth_error_app2, Nat.sub_diag by lia; reflexivity|]. split; [reflexivity|].
        apply (good_alloc (OShared i) st); auto. apply V.
      - cbn [alloc] in E. injection E as <- <-. eexists. split; [cbn; rewrite nth_error_app2, Nat.sub_diag by lia; reflexivity|]. split; [reflexivity|].
        apply (good_alloc (OTransfer i) st); auto. apply V. }
    eapply result_after; [exact Gr|]. eapply good_build_view; eauto.
  - intros id v bs st x st' W L G B. cbn [build] in B. destruct (id <? lenN (ds_log st))%N; [|discriminate B].
    destruct (nth_error (ds_log st) (N.to_nat id)) as [y|] eqn:Ey; [|discriminate B].
    assert (Gy : good_val (ds_heap st) y). { destruct G as [_ G]. rewrite Forall_forall in G. apply G. eapply nth_error_In; eauto. }
    destruct v as [v|].
    + destruct y; try discriminate B. destruct (nth_error (ds_heap st) oid) as [z|] eqn:Ez; [|discriminate B].
      destruct (is_buffer z) eqn:Bz; [|discriminate B]. eapply good_build_view; eauto.
    + destruct y; injection B as <- <-; apply good_leaf; auto.
  - intros id bs st v st' W L G B. cbn [build] in B. rewrite alloc_begun in B. injection B as <- <-. apply good_new; auto.
    inversion W as [? tb b _ Wb]; subst. inversion Wb as [| | | | | | | | | | | | | | | | | | | |? ? (_ & _ & V)|]; subst. exact V.
  - intros code d bs st v st' W L G B. cbn [build] in B. destruct (c_host dcfg); [|discriminate B]. destruct (node_format code) as [vt|] eqn:NF; [|discriminate B].
    inversion W as [? tb bb _ Wb]; subst. inversion Wb as [| | | | | | | | | | | | | | | | | | | | |? ? ? ? VC (_ & _ & V) D]; subst.
    cbn [alloc] in B. injection B as <- <-. set (bf := mkBuf d (zlen d) false false).
    destruct (good_alloc (OBuffer bf) st G) as [G1 Gr1]. { cbn. unfold zlen, lenN in *. split; auto. split; [lia|auto]. }
    set (s1 := snd (alloc (OBuffer bf) st)) in *.
    destruct (good_alloc (OView (H st) (mkView vt 0 None false)) s1 G1) as [G2 Gr2].
    { assert (Eb : nth_error (ds_heap s1) (H st) = Some (OBuffer bf)) by (cbn; rewrite nth_error_app2, Nat.sub_diag by lia; reflexivity).
      cbn [good_obj]. split; [split; cbn; [lia|exact I]|]. split; [exists (OBuffer bf); auto|].
      intros _. set (k := backing_of (ds_heap s1) (H st)). destruct (view_memory k (mkView vt 0 None false)) as [r c] eqn:M.
      assert (VO : view_ok (mkView vt 0 None false)) by (split; [cbn; lia|exact I]). pose proof (view_memory_spec _ _ _ _ VO M) as (S & _).
      unfold view_in_range. rewrite M. apply S. unfold fits. cbn [vw_offset vw_length vw_tag]. unfold zlen. lia. }
    split; [exact G2|]. split; [eapply grows_trans; eauto|]. cbn. rewrite !app_length. cbn. lia.
  - intros bs acc st acc' st' W L G A. inversion W; subst. split; [intros B|intros k B _]; cbn in B; injection B as <- <-; (split; [auto|split; [apply grows_refl|auto]]).
  - intros w IHw r IH bs acc st acc' st' W L G A. inversion W as [|? ? a b Wa Wb]; subst. rewrite lenN_app in L. split.
    + intros B. rewrite build_members_cons in B. apply bind_Ok in B as [[x s1] [B1 B]]. apply bind_Ok in B as [a1 [P B]].
      destruct (IHw _ _ _ _ Wa ltac:(lia) G B1) as (C1 & C2 & C3).
      destruct (IH b a1 s1 acc' st' Wb ltac:(lia) C1) as [Q _]; [eapply put_member_good; eauto; eapply grows_obj; eauto|].
      destruct (Q B) as (D1 & D2 & D3). split; auto. split; auto. eapply grows_trans; eauto.
    + intros k B Lk. cbn [vcount] in Lk. rewrite build_elems_cons in B. apply bind_Ok in B as [[x s1] [B1 B]]. apply bind_Ok in B as [a1 [P B]].
      destruct (IHw _ _ _ _ Wa ltac:(lia) G B1) as (C1 & C2 & C3).
      destruct (IH b a1 s1 acc' st' Wb ltac:(lia) C1) as [_ Q].
      { refine (put_good _ acc (VInt (Z.of_N k)) x _ FR _ _ C3 P); [eapply grows_obj; eauto|]. cbn. apply small_not_big. lia. }
      destruct (Q _ B) as (D1 & D2 & D3); [lia|]. split; auto. split; auto. eapply grows_trans; eauto.
  - intros bs acc st acc' st' W L G A B. cbn in B. injection B as <- <-. split; [auto|split; [apply grows_refl|auto]].
  - intros k IHk v IHv r IH bs acc st acc' st' W L G A B. inversion W as [|? ? ? a b c Wa Wb Wc]; subst. rewrite !lenN_app in L.
    rewrite build_pairs_cons in B. apply bind_Ok in B as [[x s1] [B1 B]]. apply bind_Ok in B as [[y s2] [B2 B]]. apply bind_Ok in B as [a1 [P B]].
    destruct (IHk _ _ _ _ Wa ltac:(lia) G B1) as (C1 & C2 & C3). destruct (IHv _ _ _ _ Wb ltac:(lia) C1 B2) as (D1 & D2 & D3).
    destruct (IH c a1 s2 acc' st' Wc ltac:(lia) D1) as (E1 & E2 & E3); auto.
    { refine (put_good _ acc x y _ FR _ _ D3 P); [eapply grows_obj; [|exact A]; eapply grows_trans; eauto|eapply grows_val; eauto]. }
    split; auto. split; auto. eapply grows_trans; [|exact E2]. eapply grows_trans; eauto.
Qed.
End Good.

(** * A graph with the invariant can be written *)
Section Written.
Variable dcfg : ModelDecode.dcfg.
Variable h : heap.
Variable root : val.
Hypothesis GH : Forall (good_obj dcfg h) h.
Hypothesis GR : good_val h root.

Lemma cell_good o x : nth_error h o = Some x -> good_obj dcfg h x.
Proof. intros E. rewrite Forall_forall in GH. apply GH. eapply nth_error_In; eauto. Qed.
Lemma flat_good l : Forall (fun p => good_val h (fst p) /\ good_val h (snd p)) l -> Forall (good_val h) (flat l).
Proof. induction 1 as [|[k v] l [A B] F IH]; cbn; auto. Qed.
Lemma entries_good l : forall i, Forall (good_elem h) l -> (0 <= i)%Z -> (i + Z.of_nat (length l) < 2 ^ 64)%Z ->
  Forall (fun p => good_val h (fst p) /\ good_val h (snd p)) (map (fun p => (VInt (fst p), snd p)) (entries_from i l)).
Proof.
  induction l as [|e l IH]; intros i F P L; [constructor|]. cbn [length] in L. inversion F as [|? ? A F']; subst.
  destruct e as [v|]; cbn [entries_from map]; [constructor|]; try (apply IH; auto; lia).
  cbn. split; [apply small_not_big; lia|]. apply A.
Qed.
Lemma named_good st o : holds o st -> good_state h st -> Forall (fun p => good_val h (fst p) /\ good_val h (snd p)) (named_items o).
Proof.
  intros [left (A & E & P & _)] (L & F & N & G). unfold named_items. cbn [u_obj] in P. rewrite P. apply Forall_map. eapply Forall_impl; [|exact G].
  intros [s v] (B & C & D & E'). cbn in *. auto.
Qed.
Lemma own_good st o : holds o st -> good_state h st -> Forall (fun p => good_val h (fst p) /\ good_val h (snd p)) (own_items o).
Proof.
  intros Ho Gs. unfold own_items. apply Forall_app. split; [|eapply named_good; eauto]. destruct Ho as [left (A & E & P & _)]. cbn [u_obj] in E. rewrite E.
  destruct Gs as (L & F & _). apply entries_good; auto; lia.
Qed.
Lemma children_good x v : good_obj dcfg h x -> In v (children x) -> good_val h v.
Proof.
  intros G I. destruct x; cbn [children good_obj] in *; try contradiction.
  - destruct G as [_ G]. apply flat_good in G. rewrite Forall_forall in G. auto.
  - destruct G as [_ G]. rewrite Forall_forall in G. auto.
  - destruct G as (st & Ho & Gs). pose proof (flat_good _ (own_good _ _ Ho Gs)) as F. rewrite Forall_forall in F. auto.
  - destruct G as (st & Ho & Gs). apply in_app_or in I as [I|I].
    + destruct Ho as [left (A & E & P & _)]. cbn [u_obj] in E. unfold elements in I. rewrite E in I. apply in_map_iff in I as (e & <- & I). destruct Gs as (_ & F & _).
      rewrite Forall_forall in F. specialize (F e I). destruct e; cbn in *; auto. apply F.
    + pose proof (flat_good _ (own_good _ _ Ho Gs)) as F. rewrite Forall_forall in F. auto.
  - destruct G as ((_ & _ & G) & _). destruct cause; cbn in I; try contradiction; destruct I as [<-|[]]; exact G.
  - destruct G as (_ & (y & E & _) & _). destruct I as [<-|[]]. cbn. apply nth_error_Some. congruence.
Qed.
Lemma occurs_good v : occurs h root v -> good_val h v.
Proof. induction 1 as [|o x v O IH E I]; auto. eapply children_good; eauto. eapply cell_good; eauto. Qed.
Lemma good_no_bytes o : heap_bytes h o = no_bytes o.
Proof. unfold heap_bytes, no_bytes. destruct (nth_error h o) as [x|] eqn:E; auto. apply cell_good in E. destruct x; auto. destruct E. Qed.
Lemma svz_good k : same_value_zero (heap_bytes h) k = same_value_zero no_bytes k.
Proof. destruct k; cbn [same_value_zero]; auto. rewrite good_no_bytes. reflexivity. Qed.
Lemma cinv_good {E} (f : E -> val) m : cinv no_bytes f m -> cinv (heap_bytes h) f m.
Proof. intros [A B]. split; auto. intros s x I. rewrite svz_good. auto. Qed.
Lemma scalar_points s : Forall scalar s -> Forall code_point s.
Proof. apply Forall_impl. unfold scalar, code_point. intros; lia. Qed.
Lemma scalar_clean s : Forall scalar s -> ~ surrogates s.
Proof. intros F S0. apply Exists_exists in S0 as (c & I & R). rewrite Forall_forall in F. specialize (F c I). unfold scalar in F. lia. Qed.

Variable cfg : ecfg.
Hypothesis DT : forall b d, (b < 2 ^ 64)%N -> c_date dcfg b = inl d -> exists b', (b' < 2 ^ 64)%N /\ e_timestamp cfg d = inl b'.
Lemma good_wf_jsobj o : good_jo h o -> wf_jsobj o.
Proof.
  intros (st & [left (A & E & P & _)] & L & F & N & G). cbn [u_obj] in A, E, P. unfold wf_jsobj. rewrite P, E. split; auto. split; auto. split; [|split; [|split]].
  - unfold dkeys. apply Forall_map. eapply Forall_impl; [|exact G]. intros [s v] (B & _). exact B.
  - eapply Forall_impl; [|exact F]. intros [v|] X; [destruct X; congruence|discriminate].
  - eapply Forall_impl; [|exact G]. intros [s v] (_ & _ & B & _). exact B.
  - unfold lenN. lia.
Qed.
Lemma good_wf : wf_graph h cfg root.
Proof.
  intros v O. apply occurs_good in O. destruct v; cbn in *; auto; [apply scalar_points; auto|].
  destruct (nth_error h oid) as [x|] eqn:E; [|apply nth_error_None in E; lia]. exists x. split; auto. apply cell_good in E.
  destruct x; cbn [good_obj wf_obj] in *; auto; try contradiction.
  - apply cinv_good, E.
  - apply cinv_good, E.
  - apply good_wf_jsobj, E.
  - apply good_wf_jsobj, E.
  - destruct E as [A B]. split; [apply scalar_points; auto|eauto].
  - destruct E as ((A & B & _) & _). split; match goal with |- opt_all _ ?m => destruct m end; cbn in *; auto; apply scalar_points; auto.
  - destruct E as (b & L & C). destruct (DT _ _ L C) as (b' & L' & T). intros b0 T0. congruence.
  - destruct E as (A & B & C & _). repeat split; auto. lia.
  - destruct E as (A & (y & B & C) & _). split; auto. exists y. split; auto. destruct y; cbn in *; auto; discriminate.
Qed.
Lemma good_fails u e : (f_float16 (e_features cfg) = true \/ forall o b w, occurs h root (VRef o) -> nth_error h o = Some (OView b w) -> vw_tag w <> vFloat16) ->
  occurs h root u -> ~ fails h cfg u e.
Proof.
  intros F16 O F. pose proof (occurs_good u O) as G. destruct F;
    try match goal with X : nth_error h _ = Some _ |- _ => pose proof (cell_good _ _ X) as Gx; cbn [good_obj] in Gx end; try contradiction.
  - eapply scalar_clean; eauto.
  - eapply scalar_clean; [apply Gx|auto].
  - destruct Gx as ((A & _) & _). eapply scalar_clean; eauto.
  - destruct Gx as ((_ & A & _) & _). eapply scalar_clean; eauto.
  - destruct Gx as (b & L & C). destruct (DT _ _ L C) as (b' & L' & T). congruence.
  - destruct Gx as (_ & A & _). unfold long, zlen, lenN in *. lia.
  - destruct Gx as (_ & A & _). lia.
  - destruct F16 as [F16|F16]; [congruence|]. eapply F16; eauto.
Qed.
End Written.
