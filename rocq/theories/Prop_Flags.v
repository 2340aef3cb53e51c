(** C50: regular expression flags. C51: primitive wrapper objects. *)
From Coq Require Import List NArith ZArith Bool Lia Arith Ascii String.
From Verif Require Import Base Dict ModelTags ModelValue ValueFacts KeyFacts ModelHeap ModelDecode ModelEncode SpecEncode SpecFail SpecGraph ModelFlags BuildFacts Prop_Decode Prop_Encode Prop_RoundTrip Prop_RoundTrip4.
Import ListNotations.
Open Scope list_scope.
Open Scope N_scope.

(** * C50 *)
(** The JavaScript flags in JavaScript's order (and V8's own "l"), with V8's bit. *)
Definition js_order : list (N * N) :=
  combine (text "dgilmsuvy"%string) [7; 0; 1; 6; 2; 5; 4; 8; 3].
(** The text of a flags value, whatever other bits are set, is the letters of the flags that are set, in this order. *)
Lemma land_pow2 f k : N.land f (2 ^ k) = if N.testbit f k then 2 ^ k else 0.
Proof.
  apply N.bits_inj. intros n. rewrite N.land_spec, N.pow2_bits_eqb. destruct (N.eqb_spec k n) as [->|Ne].
  - destruct (N.testbit f n); cbn; rewrite ?N.pow2_bits_true, ?N.bits_0; auto.
  - rewrite andb_false_r. destruct (N.testbit f k); rewrite ?N.pow2_bits_false, ?N.bits_0; auto.
Qed.
Lemma set_in_bit f k : set_in f (2 ^ k) = N.testbit f k.
Proof.
  unfold set_in. rewrite land_pow2. destruct (N.testbit f k); auto. destruct (N.eqb_spec (2 ^ k) 0) as [E|]; auto. apply N.pow_nonzero in E; [destruct E|lia].
Qed.
Theorem C50_text : forall f, flags_text f = map fst (filter (fun p => N.testbit f (snd p)) js_order).
Proof.
  intros f. unfold flags_text, iter_flags, members, js_order. cbn [text combine map filter fst snd m_value m_char]. rewrite !set_in_bit.
  destruct (N.testbit f 7), (N.testbit f 0), (N.testbit f 1), (N.testbit f 6), (N.testbit f 2), (N.testbit f 5), (N.testbit f 4), (N.testbit f 8), (N.testbit f 3); reflexivity.
Qed.
Print Assumptions C50_text.
(** Each letter at most once. *)
Theorem C50_text_once : forall f, NoDup (flags_text f).
Proof.
  intros f. rewrite C50_text. assert (N : NoDup (map fst js_order)) by (repeat constructor; cbn; intuition discriminate).
  revert N. generalize js_order. induction l as [|[c b] l IH]; cbn; intros N; auto. inversion N; subst. destruct (N.testbit f b); cbn; auto. constructor; auto.
  intros I. apply H1. apply in_map_iff in I as (p & <- & I). apply filter_In in I as [I _]. apply in_map. auto.
Qed.
Print Assumptions C50_text_once.
(** [canonical] drops exactly the bits that are no flag: two values have the same canonical value exactly when they have
    the same text, and a value of known flags only is its own canonical value. *)
Theorem C50_canonical : forall f g,
  flags_text (canonical_flags f) = flags_text f /\ (canonical_flags f = canonical_flags g <-> flags_text f = flags_text g) /\
  ((forall k, N.testbit f k = true -> In k (map snd js_order)) -> canonical_flags f = f).
Proof.
  assert (B : forall h k, N.testbit (canonical_flags h) k = N.testbit h k && (k <? 9)).
  { intros h k. unfold canonical_flags. change 0x1FF with (N.ones 9). rewrite N.land_spec. f_equal. destruct (N.ltb_spec k 9).
    - apply N.ones_spec_low; auto.
    - apply N.ones_spec_high; auto. }
  assert (T : forall h, flags_text (canonical_flags h) = flags_text h).
  { intros h. rewrite !C50_text. f_equal. apply filter_ext_in. intros p I. rewrite B.
    assert (L : (snd p <? 9) = true) by (cbn in I; decompose [or] I; subst; try reflexivity; contradiction). rewrite L, andb_true_r. reflexivity. }
  intros f g. split; [apply T|]. split; [split|].
  - intros E. rewrite <- (T f), <- (T g), E. reflexivity.
  - intros E. apply N.bits_inj. intros k. rewrite !B. destruct (N.ltb_spec k 9) as [L|L]; [|rewrite !andb_false_r; auto]. f_equal.
    assert (M : forall h c, In (c, k) js_order -> (In c (flags_text h) <-> N.testbit h k = true)).
    { intros h c I. rewrite C50_text, in_map_iff. split.
      - intros ([c' k'] & Ec & J). cbn [fst] in Ec. subst c'. apply filter_In in J as [J K]. cbn [snd] in K.
        assert (k' = k); [|subst; auto]. clear -I J. vm_compute in I, J.
        decompose [or] I; decompose [or] J; try contradiction; subst; congruence.
      - intros K. exists (c, k). split; auto. apply filter_In. auto. }
    assert (C : exists c, In (c, k) js_order).
    { assert (Q : In k (map snd js_order)).
      { cbn. lia. }
      apply in_map_iff in Q as ([c k'] & <- & I). eauto. }
    destruct C as [c I]. pose proof (M f c I) as Mf. pose proof (M g c I) as Mg. rewrite E in Mf. destruct (N.testbit f k), (N.testbit g k); auto; intuition congruence.
  - intros K. apply N.bits_inj. intros k. rewrite B. destruct (N.testbit f k) eqn:F; auto. apply K in F. cbn in F.
    destruct (N.ltb_spec k 9); auto. exfalso. lia.
Qed.
Print Assumptions C50_canonical.
(** Python flags: VERBOSE has no equivalent and raises; otherwise the conversion to JavaScript flags and back keeps
    IGNORECASE, MULTILINE, DOTALL and UNICODE and drops the others. *)
Definition python_common : N := N.lor 2 (N.lor 8 (N.lor 16 32)).
Lemma python_bits p : forall q, (forall k, N.testbit q k = N.testbit p k && N.testbit python_common k) -> q = N.land p python_common.
Proof. intros q E. apply N.bits_inj. intros k. rewrite N.land_spec. apply E. Qed.
Lemma common_cases p : N.land p python_common =
  N.lor (if N.testbit p 1 then 2 else 0) (N.lor (if N.testbit p 3 then 8 else 0) (N.lor (if N.testbit p 4 then 16 else 0) (if N.testbit p 5 then 32 else 0))).
Proof.
  unfold python_common. rewrite !N.land_lor_distr_r. change 2 with (2 ^ 1) at 1. change 8 with (2 ^ 3) at 1. change 16 with (2 ^ 4) at 1. change 32 with (2 ^ 5) at 1.
  rewrite !land_pow2. reflexivity.
Qed.
Theorem C50_python_round_trip_partial : forall p,
  (from_python_flags p = None <-> N.testbit p 6 = true) /\
  forall f, from_python_flags p = Some f -> as_python_flags f = Some (N.land p python_common).
Proof.
  intros p. unfold from_python_flags. rewrite (set_in_bit p 6 : set_in p pVERBOSE = _). split; [destruct (N.testbit p 6); split; congruence|].
  intros f. destruct (N.testbit p 6); [discriminate|]. intros [= <-]. rewrite common_cases.
  unfold python_members. cbn [flat_map app].
  rewrite (set_in_bit p 8 : set_in p pASCII = _), (set_in_bit p 4 : set_in p pDOTALL = _), (set_in_bit p 1 : set_in p pIGNORECASE = _), (set_in_bit p 2 : set_in p pLOCALE = _),
    (set_in_bit p 3 : set_in p pMULTILINE = _), (set_in_bit p 5 : set_in p pUNICODE = _), (set_in_bit p 6 : set_in p pVERBOSE = _).
  destruct (N.testbit p 8), (N.testbit p 4), (N.testbit p 1), (N.testbit p 2), (N.testbit p 3), (N.testbit p 5), (N.testbit p 6); vm_compute; reflexivity.
Qed.
Print Assumptions C50_python_round_trip_partial.
(** So flags made of these four only come back the same. *)
Theorem C50_python_round_trip_same : forall p, N.land p python_common = p -> exists f, from_python_flags p = Some f /\ as_python_flags f = Some p.
Proof.
  intros p E. destruct (C50_python_round_trip_partial p) as [V RT]. destruct (from_python_flags p) as [f|] eqn:F.
  - exists f. split; auto. rewrite <- E. auto.
  - apply proj1 in V. specialize (V eq_refl). rewrite <- E, N.land_spec in V. apply andb_prop in V as [_ V]. discriminate.
Qed.
Print Assumptions C50_python_round_trip_same.
(** The full statement is false: re.ASCII (256) converts without an exception and is lost. *)
Theorem C50_ascii_refuted : exists p f, from_python_flags p = Some f /\ as_python_flags f <> Some p /\ N.testbit p 8 = true.
Proof. exists 256. eexists. split; [vm_compute; reflexivity|]. split; [vm_compute; discriminate|reflexivity]. Qed.
Print Assumptions C50_ascii_refuted.
(** JavaScript flags: only "l" has no Python equivalent; the Python flags are those of the set flags, with unicode for "u"
    and "v"; going to Python and back keeps i, m and s, replaces "u" by "v" and drops d, g, y and meaningless bits. *)
Theorem C50_js_round_trip : forall f,
  (as_python_flags f = None <-> N.testbit f 6 = true) /\
  forall p, as_python_flags f = Some p ->
    (forall k, N.testbit p k = (N.testbit f 1 && (k =? 1)) || (N.testbit f 2 && (k =? 3)) || (N.testbit f 5 && (k =? 4)) || ((N.testbit f 4 || N.testbit f 8) && (k =? 5))) /\
    exists g, from_python_flags p = Some g /\
      forall k, N.testbit g k = (N.testbit f k && ((k =? 1) || (k =? 2) || (k =? 5))) || ((N.testbit f 4 || N.testbit f 8) && (k =? 8)).
Proof.
  intros f. unfold as_python_flags, iter_flags, members. cbn [filter m_value]. rewrite !set_in_bit.
  assert (B : forall n k, N.testbit n k = true -> k <= N.log2 n) by (intros n k T; destruct (N.le_gt_cases k (N.log2 n)); auto; rewrite N.bits_above_log2 in T; auto; discriminate).
  assert (KEY : forall p x1 x2 x5 x48, p = N.lor (if x1 : bool then 2 else 0) (N.lor (if x2 : bool then 8 else 0) (N.lor (if x5 : bool then 16 else 0) (if x48 : bool then 32 else 0))) ->
    (forall k, N.testbit p k = (x1 && (k =? 1)) || (x2 && (k =? 3)) || (x5 && (k =? 4)) || (x48 && (k =? 5))) /\
    exists g, from_python_flags p = Some g /\ forall k, N.testbit g k = (x1 && (k =? 1)) || (x2 && (k =? 2)) || (x5 && (k =? 5)) || (x48 && (k =? 8))).
  { intros p x1 x2 x5 x48 ->.
    assert (P2 : forall (x : bool) a k, N.testbit (if x then 2 ^ a else 0) k = x && (k =? a)) by (intros [|] a k; rewrite ?N.pow2_bits_eqb, ?N.bits_0, 1?N.eqb_sym; auto).
    split.
    - intros k. rewrite !N.lor_spec. change 2 with (2 ^ 1) at 1. change 8 with (2 ^ 3) at 1. change 16 with (2 ^ 4) at 1. change 32 with (2 ^ 5) at 1. rewrite !P2. rewrite !orb_assoc. auto.
    - exists (N.lor (if x1 then 2 ^ 1 else 0) (N.lor (if x2 then 2 ^ 2 else 0) (N.lor (if x5 then 2 ^ 5 else 0) (if x48 then 2 ^ 8 else 0)))). split.
      + destruct x1, x2, x5, x48; vm_compute; reflexivity.
      + intros k. rewrite !N.lor_spec, !P2, !orb_assoc. auto. }
  assert (G : forall p, p = N.lor (if N.testbit f 1 then 2 else 0) (N.lor (if N.testbit f 2 then 8 else 0) (N.lor (if N.testbit f 5 then 16 else 0) (if N.testbit f 4 || N.testbit f 8 then 32 else 0))) ->
    (forall k, N.testbit p k = (N.testbit f 1 && (k =? 1)) || (N.testbit f 2 && (k =? 3)) || (N.testbit f 5 && (k =? 4)) || ((N.testbit f 4 || N.testbit f 8) && (k =? 5))) /\
    exists g, from_python_flags p = Some g /\
      forall k, N.testbit g k = (N.testbit f k && ((k =? 1) || (k =? 2) || (k =? 5))) || ((N.testbit f 4 || N.testbit f 8) && (k =? 8))).
  { intros p E. destruct (KEY p _ _ _ _ E) as (A & g & F & T). split; auto. exists g. split; auto. intros k. rewrite T.
    destruct (N.eqb_spec k 1) as [->|]; [cbn; destruct (N.testbit f 1), (N.testbit f 2), (N.testbit f 5), (N.testbit f 4), (N.testbit f 8); auto|].
    destruct (N.eqb_spec k 2) as [->|]; [cbn; destruct (N.testbit f 1), (N.testbit f 2), (N.testbit f 5), (N.testbit f 4), (N.testbit f 8); auto|].
    destruct (N.eqb_spec k 5) as [->|]; [cbn; destruct (N.testbit f 1), (N.testbit f 2), (N.testbit f 5), (N.testbit f 4), (N.testbit f 8); auto|].
    rewrite !andb_false_r. auto. }
  destruct (N.testbit f 6) eqn:T6.
  - split; [|destruct (N.testbit f 7), (N.testbit f 0), (N.testbit f 1); discriminate]. split; auto. intros _. destruct (N.testbit f 7), (N.testbit f 0), (N.testbit f 1); reflexivity.
  - split; [destruct (N.testbit f 7), (N.testbit f 0), (N.testbit f 1), (N.testbit f 2), (N.testbit f 5), (N.testbit f 4), (N.testbit f 8), (N.testbit f 3); split; discriminate|].
    intros p E. apply G. revert E. clear. destruct (N.testbit f 7), (N.testbit f 0), (N.testbit f 1), (N.testbit f 2), (N.testbit f 5), (N.testbit f 4), (N.testbit f 8), (N.testbit f 3);
      intros [= <-]; vm_compute; reflexivity.
Qed.
Print Assumptions C50_js_round_trip.
(** What is written: in every tree written without references, each regular expression is decoded with the same source and with
    exactly the nine meaningful bits of its flags. *)
Theorem C50_wire : forall H cfg dcfg root rank depth, wf_graph H cfg root -> default_constants dcfg ->
  acyclic_graph H root rank -> (rank root < depth)%nat -> (forall u e, occurs H root u -> ~ fails H cfg u e) -> able H cfg dcfg false eq root ->
  exists bs v' h (R : nat -> val -> Prop), dumps_depth depth (steps_of H cfg false false) root = Ok bs /\ loads dcfg bs = Ok (v', h) /\ carries H h cfg dcfg false eq root v' R /\
    forall o s f, occurs H root (VRef o) -> nth_error H o = Some (ORegExp s f) ->
      exists j f', R o (VRef j) /\ nth_error h j = Some (ORegExp s f') /\ (forall k, N.testbit f' k = N.testbit f k && (k <? 9)) /\ flags_text f' = flags_text f.
Proof.
  intros H cfg dcfg root rank depth WF DC AC L F AB.
  destruct (C22_tree_round_trip_partial H cfg dcfg root rank depth WF DC AC L F AB) as (bs & v' & h & R & E & Ld & C & Cov & _).
  exists bs, v', h, R. split; auto. split; auto. split; auto. intros o s f O Ho. destruct (Cov o O) as [u Ru]. destruct C as [_ C].
  destruct (C o u Ru) as (x & Hx & I). rewrite Ho in Hx. injection Hx as <-. cbn in I. destruct I as (j & y & -> & Hj & CI). destruct y; try contradiction.
  destruct CI as [-> ->]. assert (T : forall k, N.testbit (N.land f 511) k = N.testbit f k && (k <? 9)).
  { intros k. rewrite N.land_spec. f_equal. change 511 with (N.ones 9). destruct (N.ltb_spec k 9); [apply N.ones_spec_low; auto|apply N.ones_spec_high; auto]. }
  exists j, (N.land f 511). split; auto. split; auto. split; auto. rewrite !C50_text. apply (f_equal (map fst)).
  unfold js_order. cbn [text combine filter snd]. rewrite !T. cbn [N.ltb N.compare Pos.compare Pos.compare_cont]. rewrite !andb_true_r. reflexivity.
Qed.
Print Assumptions C50_wire.
Example C50_case : flags_text 0x123 = text "gisv"%string /\ from_python_flags (2 + 8 + 32) = Some 0x106 /\ as_python_flags 0x106 = Some 42 /\
  N.land 42 python_common = 42 /\ as_python_flags 64 = None /\ from_python_flags 64 = None.
Proof. repeat split. Qed.

(** * C51 *)
(** The wrapper classes of JavaScript: which values may be in a wrapper with a tag. *)
Inductive wraps : stag -> val -> Prop :=
| wp_string s : wraps kStringObject (VStr s)
| wp_true : wraps kTrueObject (VBool true)
| wp_false : wraps kFalseObject (VBool false)
| wp_float b : wraps kNumberObject (VFloat b)
| wp_int z : (Z.abs z <= 2 ^ 53 - 1)%Z -> wraps kNumberObject (VInt z)
| wp_bigint z : wraps kBigIntObject (VInt z).
Definition primitive (v : val) : Prop := match v with VStr _ | VBool _ | VFloat _ | VInt _ => True | _ => False end.
Lemma safe_int_spec z : safe_int z = true <-> (Z.abs z <= 2 ^ 53 - 1)%Z.
Proof. unfold safe_int. lia. Qed.
(** The tags named primitive object tags (constants.py:772-783) are those under which some value may be wrapped. *)
Theorem C51_tags : forall t, In t JS_PRIMITIVE_OBJECT_TAGS <-> exists v, wraps t v.
Proof.
  intros t. split.
  - intros [<-|[<-|[<-|[<-|[<-|[]]]]]]; eexists; constructor.
  - intros (v & W). inversion W; subst; cbn; auto 6.
  Unshelve. all: first [exact 0%N|exact 0%Z|exact []].
Qed.
Print Assumptions C51_tags.
(** An explicit tag is accepted exactly if the value may be wrapped under it; the object then has that tag. Values of other types
    raise TypeError, mismatching tags ValueError. *)
Theorem C51_explicit_tag : forall v t,
  (wraps t v -> primitive_new v (Some t) = Ok (OPrim t v)) /\
  (primitive v -> ~ wraps t v -> primitive_new v (Some t) = Err EValue) /\
  (~ primitive v -> primitive_new v (Some t) = Err EType).
Proof.
  intros v t. unfold primitive_new, expected_tags. repeat split.
  - intros W. inversion W; subst; auto.
    + rewrite (proj2 (safe_int_spec z)) by auto. auto.
    + destruct (safe_int z); auto.
  - intros P W. destruct v as [| | |[|]|z|b|s|o]; try contradiction.
    + destruct (stag_beq t kTrueObject) eqn:B; cbn [existsb]; rewrite B; auto. apply internal_stag_dec_bl in B. subst. destruct W. constructor.
    + destruct (stag_beq t kFalseObject) eqn:B; cbn [existsb]; rewrite B; auto. apply internal_stag_dec_bl in B. subst. destruct W. constructor.
    + destruct (safe_int z) eqn:S.
      * destruct (stag_beq t kNumberObject) eqn:B; cbn [existsb]; rewrite B; [apply internal_stag_dec_bl in B; subst; destruct W; constructor; apply safe_int_spec; auto|].
        destruct (stag_beq t kBigIntObject) eqn:B2; auto. apply internal_stag_dec_bl in B2. subst. destruct W. constructor.
      * destruct (stag_beq t kBigIntObject) eqn:B; cbn [existsb]; rewrite B; auto. apply internal_stag_dec_bl in B. subst. destruct W. constructor.
    + destruct (stag_beq t kNumberObject) eqn:B; cbn [existsb]; rewrite B; auto. apply internal_stag_dec_bl in B. subst. destruct W. constructor.
    + destruct (stag_beq t kStringObject) eqn:B; cbn [existsb]; rewrite B; auto. apply internal_stag_dec_bl in B. subst. destruct W. constructor.
  - intros P. destruct v as [| | |b|z|b|s|o]; auto; elim P; exact I.
Qed.
Print Assumptions C51_explicit_tag.
(** Without a tag the value's own is used: numbers when they fit in a double, BigInts otherwise. *)
Theorem C51_own_tag : forall v, primitive v -> exists t, primitive_new v None = Ok (OPrim t v) /\ wraps t v /\
  forall z, v = VInt z -> t = kBigIntObject -> (2 ^ 53 <= Z.abs z)%Z.
Proof.
  intros v P. destruct v as [| | |[|]|z|b|s|o]; try contradiction; cbn; try (eexists; split; [reflexivity|]; split; [constructor|discriminate]).
  destruct (safe_int z) eqn:S; eexists; (split; [reflexivity|]); (split; [constructor; apply safe_int_spec in S; auto|]); intros z' [= <-]; [discriminate|].
  intros _. assert (N : ~ (Z.abs z <= 2 ^ 53 - 1)%Z) by (rewrite <- safe_int_spec; congruence). lia.
Qed.
Print Assumptions C51_own_tag.
(** What is written for a wrapper made by the class is read back as its value; ints in number objects as the equal double. *)
Theorem C51_round_trip : forall cfg dcfg v tag t, default_constants dcfg -> wf_val [] cfg v ->
  (forall s, v = VStr s -> ~ surrogates s) -> (forall z, v = VInt z -> t = kBigIntObject -> ~ big z) ->
  primitive_new v tag = Ok (OPrim t v) ->
  exists bs v' h, dumps [OPrim t v] cfg (VRef 0) = Ok bs /\ loads dcfg bs = Ok (v', h) /\ unwrapped t v v'.
Proof.
  intros cfg dcfg v tag t DC WV NS NB E.
  assert (W : wraps t v).
  { destruct tag as [u|].
    - destruct (C51_explicit_tag v u) as (A & B & C). destruct v as [| | |b|z|b|s|o]; try discriminate.
      all: assert (Q : wraps u (VBool false) \/ True) by auto.
      all: unfold primitive_new in E; cbn [expected_tags] in E.
      1: destruct b. all: try (destruct (safe_int z) eqn:S).
      all: cbn [existsb] in E; rewrite ?orb_false_r in E.
      all: match type of E with (if ?c then _ else _) = _ => destruct c eqn:K; [|discriminate] end; injection E as <-.
      all: try (apply internal_stag_dec_bl in K; subst; constructor).
      apply orb_prop in K as [K|K]; apply internal_stag_dec_bl in K; subst; constructor. apply safe_int_spec. auto.
    - destruct (C51_own_tag v) as (t' & E' & W & _); [destruct v; try discriminate; exact I|]. rewrite E in E'. injection E' as <-. auto. }
  clear E. assert (OC : forall u, occurs [OPrim t v] (VRef 0) u -> u = VRef 0).
  { intros u O. induction O as [|o x c O IH Ho I]; auto. injection IH as ->. injection Ho as <-. destruct I. }
  destruct (C21_round_trip_partial [OPrim t v] cfg dcfg (VRef 0)) as (bs & v' & h & R & D & Ld & C & _).
  - intros u O. apply OC in O as ->. exists (OPrim t v). split; auto. cbn. destruct W; cbn in *; auto. lia.
  - auto.
  - split.
    + intros u e O Fl. apply OC in O as ->. inversion Fl; subst; repeat match goal with X : nth_error _ _ = Some _ |- _ => cbn in X; try discriminate X; injection X as X; subst end; eauto.
      * eapply NS; eauto.
      * eapply NB; eauto.
    + right. intros o O Cy. apply OC in O. injection O as ->. destruct Cy as (n & m & s & c & Hx & _). discriminate.
  - intros o x O Ho. apply OC in O. injection O as ->. injection Ho as <-. exact I.
  - intros o x O Ho. apply OC in O. injection O as ->. injection Ho as <-. exact I.
  - intros a b Oa Ob _ _. apply OC in Oa as ->. apply OC in Ob as ->. auto.
  - exists bs, v', h. split; auto. split; auto. destruct C as [(v0 & <- & Rv) C]. destruct (C _ _ Rv) as (x & Hx & I). injection Hx as <-. exact I.
Qed.
Print Assumptions C51_round_trip.
Example C51_case : primitive_new (VInt 5) (Some kBigIntObject) = Ok (OPrim kBigIntObject (VInt 5)) /\ primitive_new (VInt (2 ^ 53)) None = Ok (OPrim kBigIntObject (VInt (2 ^ 53))) /\
  primitive_new (VInt (2 ^ 53)) (Some kNumberObject) = Err EValue /\ primitive_new VNone None = Err EType /\ primitive_new (VBool true) (Some kFalseObject) = Err EValue /\
  ~ big 5 /\ (exists bs, dumps [OPrim kBigIntObject (VInt 5)] (ex_ecfg ex_none) (VRef 0) = Ok bs /\ loads ex_cfg bs = Ok (VInt 5, [])).
Proof. repeat (split; [reflexivity|]). split; [apply clean_int_ok; reflexivity|]. eexists. split; [vm_compute; reflexivity|]. vm_compute. reflexivity. Qed.
