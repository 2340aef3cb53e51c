(** The memory of what loads builds, for C71. *)
From Coq Require Import List NArith ZArith Bool Lia ZifyBool ZifyNat ZifyN Sorting.Sorted.
From Verif Require Import Base Dict ModelTags SpecPrim SpecArray ModelArray ArrayFacts ArrayFacts2 ArrayFacts3 ModelValue SpecObject
  ModelObject ObjectFacts ArrayBuild ModelMap ModelBuffer ModelHeap ModelDecode SpecWire SpecBuild DecodeFacts DecodeSound BuildFacts SpecStore.
Import ListNotations.
Open Scope nat_scope.
Notation alen := ModelArray.zlen.

(** * Cells of an object that is filled *)
Section Fill.
Context {T : Type}.

Lemma sparse_cells (s : sparse T) : sparse_ok s -> arr_cells (ASparse s) <= 3 * length (s_items s).
Proof.
  intros [N [_ [_ S1]]]. cbn [arr_cells]. destruct (s_sorted s) as [l|]; [|lia]. destruct S1 as [S1 S2].
  assert (length l <= length (dkeys (s_items s))).
  { apply NoDup_incl_length; [apply ssorted_NoDup; exact S1|]. intros x. apply S2. }
  rewrite map_length in *. lia.
Qed.
Lemma int_keys_assign (m : list (pkey * T)) p v : length (int_keys (assign m p v)) <= S (length (int_keys m)).
Proof.
  destruct v as [v|]; cbn [assign].
  - induction m as [|[[t|y] w] m IH]; cbn [dset].
    + destruct p; cbn; lia.
    + destruct (pkey_eqb p (PStr t)); cbn [int_keys flat_map fst app] in *; [lia|exact IH].
    + destruct (pkey_eqb p (PInt y)); cbn [int_keys flat_map fst app length] in *; [lia|].
      unfold int_keys in *. lia.
  - induction m as [|[[t|y] w] m IH]; cbn [ddel]; [lia| |].
    + destruct (pkey_eqb p (PStr t)); cbn [int_keys flat_map fst app] in *; [unfold int_keys in *; lia|exact IH].
    + destruct (pkey_eqb p (PInt y)); cbn [int_keys flat_map fst app length] in *; unfold int_keys in *; lia.
Qed.

(** After [u] assignments. *)
Definition filled (o : jsobj T) (u : nat) : Prop :=
  (exists m, rep o m) /\ exists a b, a + b <= u /\ (arr_used (jo_arr o) <= Z.of_nat a)%Z /\
    arr_cells (jo_arr o) <= 15 + 4 * a /\ length (jo_props o) <= b.
Lemma filled_cells o u : filled o u -> jo_cells o <= 15 + 4 * u.
Proof. intros [_ [a [b [H [_ [C P]]]]]]. unfold jo_cells. lia. Qed.
Lemma filled_more o u u' : filled o u -> u <= u' -> filled o u'.
Proof. intros [R [a [b [H X]]]] L. split; [exact R|]. exists a, b. split; [lia|exact X]. Qed.
Lemma filled_empty : filled jo_empty 0.
Proof. split; [exists []; apply rep_empty|]. exists 0, 0. cbn. repeat split; lia. Qed.

Lemma ensure_dense (a : arr T) k d' : ensure_array_capacity a k = (Ok tt, ADense d') ->
  exists d, a = ADense d /\ (length (d_items d') = length (d_items d) \/
    (Z.of_nat (length (d_items d')) = k + 1 /\ (k + 1 <= 15 \/ k + 1 <= 4 * (d_used d + 1)))%Z).
Proof.
  unfold ensure_array_capacity. destruct (k <? arr_len a)%Z eqn:L.
  - intros [= ->]. eauto.
  - destruct a as [d|s].
    + exists d. split; [reflexivity|]. destruct (_ && _)%bool eqn:C.
      * destruct (view_items (ADense d)) as [[items|e] ?]; [|discriminate].
        destruct (sparse_init_length items (k + 1)); discriminate.
      * unfold MIN_SPARSE_ARRAY_SIZE in C. revert H. cbn [arr_resize lift]. unfold lift, dense_resize.
        destruct (_ || _)%bool eqn:R; [discriminate|]. cbn [arr_len] in L.
        replace (k + 1 <? dense_len d)%Z with false by lia. cbn [fst snd]. intros [= <-]. cbn [d_items].
        right. rewrite app_length, repeat_length. unfold dense_len, alen in *. split; lia.
    + cbn [arr_resize lift]. unfold lift. destruct (sparse_resize s (k + 1)) as [r s']. cbn. intros H. discriminate H.
Qed.
Lemma dense_set_length (d : dense T) k v r d' : dense_set d k v = (r, d') -> length (d_items d') = length (d_items d).
Proof.
  unfold dense_set. destruct (dense_norm d k) as [j|]; [|intros [= _ <-]; reflexivity].
  destruct (znth (d_items d) j); intros [= _ <-]; [|reflexivity]. cbn [d_items]. generalize (Z.to_nat j). generalize (d_items d). clear.
  induction l; intros [|n]; cbn; auto.
Qed.
Lemma filled_set o u p v r o' : filled o u -> pok p -> jo_set o p v = (r, o') -> filled o' (S u).
Proof.
  intros [[m R] [a [b [H [U [C P]]]]]] PK E. destruct (rep_set o m p v R PK) as [r' [o1 [E1 [R1 _]]]].
  rewrite E in E1. injection E1 as <- <-. split; [eauto|].
  destruct p as [s|k]; cbn [jo_set] in E.
  - injection E as <- <-. exists a, (S b). cbn [jo_arr jo_props]. repeat split; try lia.
    destruct v; [rewrite dset_length|rewrite ddel_length]; destruct (dmem listN_eqb s (jo_props o)); lia.
  - exists (S a), b. pose proof (rep_used _ _ R) as U0. pose proof (rep_used _ _ R1) as U1.
    pose proof (int_keys_assign m (PInt k) v) as IK. destruct R1 as [A1 _].
    destruct R as [A0 _]. destruct (ensure_spec (jo_arr o) k A0 PK) as [a1 [EN [A1' [L1 _]]]]. rewrite EN in E.
    destruct (arr_set a1 k v) as [r2 a2] eqn:ES. injection E as -> <-. cbn [jo_arr jo_props] in *.
    split; [lia|]. split; [lia|]. split; [|lia].
    destruct a2 as [d2|s2].
    + destruct a1 as [d1|s1]; cbn [arr_set] in ES; unfold lift in ES; [|discriminate].
      destruct (dense_set d1 k v) as [r3 d3] eqn:DS. cbn [fst snd] in ES. injection ES as -> ->.
      apply dense_set_length in DS.
      destruct (ensure_dense _ _ _ EN) as [d [Ed X]]. rewrite Ed in *. cbn [arr_cells arr_used] in *. lia.
    + cbn [jo_arr] in *. pose proof (sparse_cells s2 A1) as SC. cbn [arr_used] in *. unfold alen in *. lia.
Qed.
Lemma filled_same o u o' m' : filled o u -> rep o' m' -> (arr_used (jo_arr o') <= arr_used (jo_arr o))%Z ->
  length (jo_props o') <= length (jo_props o) ->
  (forall d', jo_arr o' = ADense d' -> exists d, jo_arr o = ADense d /\ length (d_items d') = length (d_items d)) -> filled o' u.
Proof.
  intros [_ [a [b [H [U [C P]]]]]] R UU PP D. split; [eauto|]. exists a, b. split; [lia|]. split; [lia|]. split; [|lia].
  destruct R as [A _]. destruct (jo_arr o') as [d'|s'].
  - destruct (D d' eq_refl) as [d [E L]]. rewrite E in C. cbn [arr_cells] in *. lia.
  - pose proof (sparse_cells s' A) as SC. cbn [arr_used] in *. unfold alen in *. lia.
Qed.
Definition nneg (p : pkey) := match p with PInt z => (0 <= z)%Z | PStr _ => True end.
Lemma pok_nneg p : pok p -> nneg p.
Proof. destruct p; cbn; [auto|lia]. Qed.
Lemma filled_del o u p r o' : filled o u -> nneg p -> jo_del o p = (r, o') -> filled o' u.
Proof.
  intros F PK E. pose proof F as [[m R] _]. pose proof (rep_del o m p R) as X.
  specialize (X PK).
  destruct (dget pkey_eqb p m) as [v|] eqn:G.
  - destruct X as [r1 [o1 [E1 [R1 _]]]]. rewrite E in E1. injection E1 as <- <-.
    eapply filled_same; [exact F|exact R1| | |].
    + rewrite (rep_used _ _ R), (rep_used _ _ R1). assert (length (int_keys (ddel pkey_eqb p m)) <= length (int_keys m)); [|lia].
      clear. induction m as [|[[t|y] w] m IH]; cbn [ddel]; [lia| |].
      * destruct (pkey_eqb p (PStr t)); cbn [int_keys flat_map fst app] in *; [unfold int_keys in *; lia|exact IH].
      * destruct (pkey_eqb p (PInt y)); cbn [int_keys flat_map fst app length] in *; unfold int_keys in *; lia.
    + destruct p as [s|k]; cbn [jo_del] in E.
      * destruct (dmem listN_eqb s (jo_props o)) eqn:DM; injection E as <- <-; [|lia]. cbn [jo_props]. rewrite ddel_length, DM. lia.
      * destruct (k <? arr_len (jo_arr o))%Z; [|injection E as <- <-; lia].
        destruct (arr_get (jo_arr o) k) as [[w|]|]; [|injection E as <- <-; lia|injection E as <- <-; lia].
        destruct (arr_set (jo_arr o) k None). injection E as <- <-. cbn [jo_props]. lia.
    + intros d' D'. destruct p as [s|k]; cbn [jo_del] in E.
      * destruct (dmem listN_eqb s (jo_props o)) eqn:DM; injection E as <- <-; cbn [jo_arr] in D'; eauto.
      * destruct (k <? arr_len (jo_arr o))%Z; [|injection E as <- <-; eauto].
        destruct (arr_get (jo_arr o) k) as [[w|]|]; [|injection E as <- <-; eauto|injection E as <- <-; eauto].
        destruct (arr_set (jo_arr o) k None) as [r2 a2] eqn:ES. injection E as <- <-. cbn [jo_arr] in D'. subst a2.
        destruct (jo_arr o) as [d1|s1]; cbn [arr_set] in ES; unfold lift in ES; [|discriminate].
        destruct (dense_set d1 k None) as [r3 d3] eqn:DS. cbn [fst snd] in ES. injection ES as -> ->.
        apply dense_set_length in DS. eauto.
  - rewrite X in E. injection E as <- <-. exact F.
Qed.
Lemma filled_iter o u ks o' : filled o u -> jo_iter o = (ks, o') -> filled o' u /\ (forall k, In k ks -> nneg k).
Proof.
  intros F E. pose proof F as [[m R] _]. destruct (rep_iter o m R) as [ks1 [o1 [E1 [R1 [[ix [_ [IX ->]]] [D S1]]]]]].
  rewrite E in E1. injection E1 as -> <-. split.
  - eapply filled_same; [exact F|exact R1| | |].
    + rewrite (rep_used _ _ R), (rep_used _ _ R1). lia.
    + destruct R as [_ [_ [-> _]]]. destruct R1 as [_ [_ [-> _]]]. lia.
    + intros d' D'. destruct (jo_arr o) as [d|s] eqn:A.
      * rewrite (D d eq_refl) in D'. rewrite A in D'. injection D' as <-. eauto.
      * destruct (S1 s eq_refl) as [s' S2]. congruence.
  - intros k K. apply in_app_iff in K as [K|K]; apply in_map_iff in K as [z [<- K]]; [|exact I].
    apply IX in K. apply int_keys_in in K. apply (dget_Some_key _ pkey_eqb_spec) in K as [v K].
    apply (get_int_range o m z v R) in K. cbn [nneg]. lia.
Qed.
Lemma filled_setdefault o u p v r o' : filled o u -> pok p -> jo_setdefault o p v = (r, o') -> filled o' (S u).
Proof.
  intros F PK. unfold jo_setdefault. destruct (jo_get o p) as [w|e].
  - intros [= _ <-]. apply (filled_more _ u); [exact F|lia].
  - destruct e; try (intros [= _ <-]; apply (filled_more _ u); [exact F|lia]).
    destruct (jo_set o p (Some v)) as [[x|x] o1] eqn:E; intros [= _ <-]; exact (filled_set _ _ _ _ _ _ F PK E).
Qed.
Lemma filled_pop o u p r o' : filled o u -> nneg p -> jo_pop o p = (r, o') -> filled o' u.
Proof.
  intros F PK. unfold jo_pop. destruct (jo_get o p) as [w|e]; [|intros [= _ <-]; exact F].
  destruct (jo_del o p) as [[x|x] o1] eqn:E; intros [= _ <-]; exact (filled_del _ _ _ _ _ F PK E).
Qed.
Lemma filled_popitem o u r o' : filled o u -> jo_popitem o = (r, o') -> filled o' u.
Proof.
  intros F. unfold jo_popitem. destruct (jo_iter o) as [ks o1] eqn:E. destruct (filled_iter _ _ _ _ F E) as [F1 K].
  destruct ks as [|p ks]; [intros [= _ <-]; exact F1|].
  destruct (jo_get o1 p) as [w|e]; [|intros [= _ <-]; exact F1].
  destruct (jo_del o1 p) as [[x|x] o2] eqn:E2; intros [= _ <-]; exact (filled_del _ _ _ _ _ F1 (K _ (or_introl eq_refl)) E2).
Qed.
Lemma filled_clear n : forall o u r o', filled o u -> jo_clear n o = (r, o') -> filled o' u.
Proof.
  induction n as [|n IH]; intros o u r o' F; cbn [jo_clear]; [intros [= _ <-]; exact F|].
  destruct (jo_popitem o) as [[x|x] o1] eqn:E; pose proof (filled_popitem _ _ _ _ F E) as F1; [apply (IH _ _ _ _ F1)|].
  destruct x; intros [= _ <-]; exact F1.
Qed.
Lemma filled_update fr ps : forall o u r o', filled o u -> jo_update fr o ps = (r, o') -> filled o' (length ps + u).
Proof.
  induction ps as [|[k v] ps IH]; intros o u r o' F; cbn [jo_update length]; [intros [= _ <-]; exact F|].
  destruct (normalise_property_key fr k) as [p|e] eqn:N; [|intros [= _ <-]; apply (filled_more _ u); [exact F|lia]].
  destruct (jo_set o p v) as [[x|x] o1] eqn:E; pose proof (filled_set _ _ _ _ _ _ F (norm_pok _ _ _ N) E) as F1.
  - intros X. apply (filled_more _ (length ps + S u)); [exact (IH _ _ _ _ F1 X)|lia].
  - intros [= _ <-]. apply (filled_more _ (S u)); [exact F1|lia].
Qed.
Lemma filled_op fr op o u r o' : filled o u -> jo_op fr o op = (r, o') -> filled o' (op_assignments op + u).
Proof.
  intros F. destruct op; cbn [jo_op op_assignments]; unfold with_key, unit_mresp, val_mresp;
    try (destruct (normalise_property_key fr k) as [p|e] eqn:N;
         [pose proof (norm_pok _ _ _ N) as PK|intros [= _ <-]; eapply filled_more; [exact F|lia]]).
  - destruct (jo_get o p); intros [= _ <-]; exact F.
  - destruct (jo_set o p v) as [[x|x] o1] eqn:E; intros [= _ <-]; exact (filled_set _ _ _ _ _ _ F PK E).
  - destruct (jo_del o p) as [[x|x] o1] eqn:E; intros [= _ <-]; exact (filled_del _ _ _ _ _ F (pok_nneg _ PK) E).
  - destruct (jo_contains o p); intros [= _ <-]; exact F.
  - intros [= _ <-]. exact F.
  - destruct (jo_iter o) as [ks o1] eqn:E. intros [= _ <-]. exact (proj1 (filled_iter _ _ _ _ F E)).
  - destruct (jo_pop o p) as [[x|x] o1] eqn:E; intros [= _ <-]; exact (filled_pop _ _ _ _ _ F (pok_nneg _ PK) E).
  - destruct (jo_setdefault o p v) as [[x|x] o1] eqn:E; intros [= _ <-]; exact (filled_setdefault _ _ _ _ _ _ F PK E).
  - destruct (jo_update fr o ps) as [[x|x] o1] eqn:E; intros [= _ <-]; exact (filled_update _ _ _ _ _ _ F E).
  - destruct (jo_popitem o) as [[[x y]|x] o1] eqn:E; intros [= _ <-]; exact (filled_popitem _ _ _ _ F E).
  - destruct (jo_clear _ o) as [[x|x] o1] eqn:E; intros [= _ <-]; exact (filled_clear _ _ _ _ _ F E).
Qed.
Lemma filled_ops fr ops : forall o u tr o', filled o u -> jo_ops fr o ops = (tr, o') -> filled o' (assignments ops + u).
Proof.
  induction ops as [|op ops IH]; intros o u tr o' F; cbn [jo_ops]; [intros [= _ <-]; exact F|].
  destruct (jo_op fr o op) as [r o1] eqn:E1. destruct (jo_ops fr o1 ops) as [tr2 o2] eqn:E2. intros [= _ <-].
  apply (filled_more _ (assignments ops + (op_assignments op + u)));
    [exact (IH _ _ _ _ (filled_op _ _ _ _ _ _ F E1) E2)|]. unfold assignments. cbn [map list_sum fold_right]. unfold list_sum. lia.
Qed.
(** A first assignment of a hole, which gives a sparse array its length. *)
Lemma filled_hole (o' : jsobj T) k : pok (PInt k) -> jo_set jo_empty (PInt k) None = (Ok tt, o') -> filled o' 0.
Proof.
  intros PK E. destruct (rep_set (T := T) jo_empty [] (PInt k) None rep_empty PK) as [r [o1 [E1 [R1 _]]]].
  rewrite E in E1. injection E1 as <- <-. split; [eauto|]. exists 0, 0.
  pose proof (rep_used _ _ R1) as U1. cbn in U1. destruct R1 as [A1 [_ [P1 _]]]. cbn in P1. rewrite P1.
  split; [lia|]. split; [lia|]. split; [|cbn; lia].
  cbn [jo_set] in E. destruct (ensure_array_capacity _ k) as [[[]|e] a1] eqn:EN; [|discriminate].
  destruct (arr_set a1 k None) as [r2 a2] eqn:ES. injection E as -> <-. cbn [jo_arr jo_props] in *.
  destruct a2 as [d2|s2].
  - destruct a1 as [d1|s1]; cbn [arr_set] in ES; unfold lift in ES; [|discriminate].
    destruct (dense_set d1 k None) as [r3 d3] eqn:DS. cbn [fst snd] in ES. injection ES as -> ->.
    apply dense_set_length in DS.
    destruct (ensure_dense _ _ _ EN) as [d [Ed X]]. injection Ed as <-. cbn [arr_cells] in *. cbn in X. lia.
  - pose proof (sparse_cells s2 A1) as SC. cbn [arr_used] in *. unfold alen in *. lia.
Qed.
End Fill.

(** * Cells of the objects a value of the format makes *)
Fixpoint vn (vs : wvals) : nat := match vs with VNil => 0 | VCons _ r => S (vn r) end.
Fixpoint pn (ps : wpairs) : nat := match ps with PNil => 0 | PCons _ _ r => S (pn r) end.
Definition buf_cells (b : wbuf) : nat :=
  match b with BufPlain d | BufResizable d _ => length d | _ => 0 end.
Fixpoint wc (w : wval) : nat :=
  match w with
  | WDate _ | WRegExp _ _ _ | WSharedObj _ => 1
  | WError _ _ _ => 4
  | WErrorC _ _ _ c _ => 7 + wc c
  | WMap ps => 1 + 3 * pn ps + wc_pairs ps
  | WSet vs => 1 + 2 * vn vs + wc_vals vs
  | WObject ps => 1 + (match ps with PNil => 0 | _ => 15 + 4 * pn ps end) + wc_pairs ps
  | WDense vs ps => 16 + 4 * (vn vs + pn ps) + wc_vals vs + wc_pairs ps
  | WSparse _ ps => 16 + 4 * pn ps + wc_pairs ps
  | WBuf b v => S (buf_cells b) + view_objs v
  | WRef _ v => view_objs v
  | WHost _ d => 2 + length d
  | _ => 0
  end
with wc_vals (vs : wvals) : nat := match vs with VNil => 0 | VCons w r => wc w + wc_vals r end
with wc_pairs (ps : wpairs) : nat := match ps with PNil => 0 | PCons k v r => wc k + wc v + wc_pairs r end.
Lemma wc_map ps : wc (WMap ps) = 1 + 3 * pn ps + wc_pairs ps. Proof. reflexivity. Qed.
Lemma wc_set vs : wc (WSet vs) = 1 + 2 * vn vs + wc_vals vs. Proof. reflexivity. Qed.
Lemma wc_object ps : wc (WObject ps) = 1 + (match ps with PNil => 0 | _ => 15 + 4 * pn ps end) + wc_pairs ps. Proof. reflexivity. Qed.
Lemma wc_dense vs ps : wc (WDense vs ps) = 16 + 4 * (vn vs + pn ps) + wc_vals vs + wc_pairs ps. Proof. reflexivity. Qed.
Lemma wc_sparse n ps : wc (WSparse n ps) = 16 + 4 * pn ps + wc_pairs ps. Proof. reflexivity. Qed.
Lemma wc_errorc a b c d e : wc (WErrorC a b c d e) = 7 + wc d. Proof. reflexivity. Qed.
Lemma wc_vals_cons w r : wc_vals (VCons w r) = wc w + wc_vals r. Proof. reflexivity. Qed.
Lemma wc_pairs_cons k v r : wc_pairs (PCons k v r) = wc k + wc v + wc_pairs r. Proof. reflexivity. Qed.

Lemma varint_length bs n : is_varint bs n -> 1 <= length bs.
Proof. destruct 1; cbn; lia. Qed.
Lemma etagged_length e bs : etagged e bs -> 1 <= length bs.
Proof. apply varint_length. Qed.
Lemma varint32_length n bs : varint32 n bs -> 1 <= length bs.
Proof. intros [H _]. exact (varint_length _ _ H). Qed.
Lemma wstring_length e s bs : wstring e s bs -> 1 <= length bs.
Proof. intros [? ? ? _ H|? ? ? _ H|? ? ? _ H|? ? ? _ H]; apply varint_length in H; rewrite app_length; lia. Qed.
Lemma wdouble_length b bs : wdouble b bs -> length bs = 8.
Proof. intros [_ ->]. reflexivity. Qed.
Lemma wbufb_length b bs : wbufb b bs -> S (buf_cells b) <= length bs.
Proof.
  destruct 1 as [d lb H _|d mx lb mb H H2 _ _|id bs H|id bs H]; cbn [buf_cells]; apply varint32_length in H;
    rewrite ?app_length; lia.
Qed.
Ltac lens :=
  repeat match goal with
  | X : tagged _ _ |- _ => apply tagged_length in X
  | X : is_varint _ _ |- _ => apply varint_length in X
  | X : etagged _ _ |- _ => apply etagged_length in X
  | X : varint32 _ _ |- _ => apply varint32_length in X
  | X : wstring _ _ _ |- _ => apply wstring_length in X
  | X : wdouble _ _ |- _ => apply wdouble_length in X
  | X : wbufb _ _ |- _ => apply wbufb_length in X
  | X : wviewb _ _ _ |- _ => apply wviewb_length in X
  end.
Theorem wire_cells version :
  (forall w bs, wire version w bs -> wc w + 4 <= 4 * length bs /\ (is_key w -> wc w + 8 <= 4 * length bs)) /\
  (forall w bs, wbody version w bs -> wc w <= 4 * length bs /\ (is_key w -> wc w + 4 <= 4 * length bs)) /\
  (forall vs bs, wseq version vs bs -> wc_vals vs + 4 * vn vs <= 4 * length bs) /\
  (forall ps bs, wprs version ps bs -> wc_pairs ps + 8 * pn ps <= 4 * length bs /\
     (keys_ok ps -> wc_pairs ps + 12 * pn ps <= 4 * length bs)).
Proof.
  cut ((forall w bs (_ : wire version w bs), wc w + 4 <= 4 * length bs /\ (is_key w -> wc w + 8 <= 4 * length bs)) /\
  (forall w bs (_ : wbody version w bs), wc w <= 4 * length bs /\ (is_key w -> wc w + 4 <= 4 * length bs)) /\
  (forall vs bs (_ : wseq version vs bs), wc_vals vs + 4 * vn vs <= 4 * length bs) /\
  (forall ps bs (_ : wprs version ps bs), wc_pairs ps + 8 * pn ps <= 4 * length bs /\
     (keys_ok ps -> wc_pairs ps + 12 * pn ps <= 4 * length bs))); [tauto|].
  apply wire_mutind; intros; rewrite ?app_length in *; lens;
    try (cbn [wc is_key]; lia; fail).
  - split; [lia|]. intros K. apply H in K. lia.
  - destruct H as [_ H]. specialize (H k). rewrite wc_object. split; [|contradiction].
    destruct ps; cbn [pn] in *; lia.
  - cbn. lia.
  - cbn [wc_vals vn]. lia.
  - cbn. lia.
  - destruct H1 as [H1 H2]. rewrite wc_pairs_cons. cbn [pn]. split; [lia|]. intros [K1 K2].
    apply H in K1. apply H2 in K2. lia.
Qed.

(** * Building *)
Section Build.
Variable cfg : dcfg.
Lemma cells_app h o : cells (h ++ [o]) = cells h + S (obj_cells o).
Proof. unfold cells. induction h; cbn [app fold_right] in *; lia. Qed.
Lemma cells_set h i o : cells (heap_set h i o) <= cells h + obj_cells o.
Proof. unfold cells. revert i. induction h as [|x h IH]; intros [|i]; cbn [heap_set fold_right]; try lia. specialize (IH i). lia. Qed.
Notation C st := (cells (ds_heap st)).
Lemma C_new o st v : C (record v {| ds_heap := ds_heap st ++ [o]; ds_log := ds_log st |}) = C st + S (obj_cells o).
Proof. apply cells_app. Qed.
Lemma C_str enc s st : C (build_str enc s st) = C st.
Proof. unfold build_str. destruct (stag_eqb enc kStringObject); reflexivity. Qed.
Lemma C_field f st s st' : build_field f st = (s, st') -> C st' = C st.
Proof. destruct f as [[enc x]|]; cbn; intros E; injection E as <- <-; [apply C_str|reflexivity]. Qed.
Lemma C_view b v st x st' : build_view b v st = Ok (x, st') -> C st' = C st + view_objs v.
Proof.
  destruct v as [v|]; cbn [build_view view_objs]; intros E.
  - apply bind_Ok in E as [y [_ E]]. cbn [alloc_rec alloc] in E. injection E as <- <-. rewrite C_new. reflexivity.
  - injection E as <- <-. lia.
Qed.
Lemma C_store i o st : C (store i o st) <= C st + obj_cells o.
Proof. apply cells_set. Qed.

(** An accumulator after [u] items. *)
Definition acc_filled (a : obj) (u : nat) : Prop :=
  match a with
  | OMap m => length m <= u
  | OObject o | OArray o => filled o u
  | _ => False
  end.
Definition acc_max (a : obj) (u : nat) : nat := match a with OMap _ => 3 * u | _ => 15 + 4 * u end.
Lemma acc_filled_cells a u : acc_filled a u -> obj_cells a <= acc_max a u.
Proof. destruct a; cbn [acc_filled obj_cells acc_max]; try contradiction; try lia; apply filled_cells. Qed.
Lemma filled_jo_put fr (o o' : jsobj val) u k v : filled o u -> jo_put fr o k v = Ok o' -> filled o' (S u).
Proof.
  intros F E. unfold jo_put in E. destruct (val_key k) as [kk|]; [|discriminate].
  apply bind_Ok in E as [p [N E]]. destruct (jo_set o p (elem_of v)) as [[[]|e] o1] eqn:S1; [|discriminate]. injection E as <-.
  eapply filled_set; eauto. eapply norm_pok; eauto.
Qed.
Lemma put_filled a u k v a' : acc_filled a u -> put cfg a k v = Ok a' -> acc_filled a' (S u) /\ acc_max a' = acc_max a.
Proof.
  destruct a; cbn [acc_filled put]; try contradiction; intros F E; apply bind_Ok in E as [x [E1 E]]; injection E as <-; cbn [acc_filled acc_max];
    (split; [|reflexivity]); try (eapply filled_jo_put; eauto; fail).
  unfold jm_set in E1. apply bind_Ok in E1 as [s [_ E1]]. injection E1 as <-. rewrite dset_length. destruct (dmem _ _ _); lia.
Qed.
Definition c_ok w := forall st v st', build cfg w st = Ok (v, st') -> C st' <= C st + wc w.
Definition c_vals_ok vs :=
  (forall m st acc' st', build_members cfg vs (OSet m) st = Ok (acc', st') -> C st' <= C st + wc_vals vs /\
     exists m', acc' = OSet m' /\ length m' <= length m + vn vs) /\
  (forall i acc u st acc' st', acc_filled acc u -> build_elems cfg vs i acc st = Ok (acc', st') -> C st' <= C st + wc_vals vs /\
     acc_filled acc' (u + vn vs) /\ acc_max acc' = acc_max acc).
Definition c_pairs_ok ps := forall acc u st acc' st', acc_filled acc u -> build_pairs cfg ps acc st = Ok (acc', st') ->
  C st' <= C st + wc_pairs ps /\ acc_filled acc' (u + pn ps) /\ acc_max acc' = acc_max acc.
Theorem build_cells : (forall w, c_ok w) /\ (forall vs, c_vals_ok vs) /\ (forall ps, c_pairs_ok ps).
Proof.
  apply wval_mutind; intros.
  all: try (intros st r st' B; cbn [build wc] in *; cbn [alloc_rec alloc] in *; injection B as <- <-;
            rewrite ?C_new, ?C_str; cbn [record ds_heap obj_cells]; lia; fail).
  - intros st r st' B. cbn [build wc] in *. destruct (c_date cfg bits); [|discriminate B].
    cbn [alloc_rec alloc] in B. injection B as <- <-. rewrite C_new. cbn [obj_cells]. lia.
  - intros st r st' B. cbn [build wc] in *. apply bind_Ok in B as [o [RE B]]. cbn [alloc_rec alloc] in B. injection B as <- <-.
    rewrite C_new, C_str. unfold regexp_new in RE. destruct (_ && _)%bool; [discriminate|]. injection RE as <-. cbn [obj_cells]. lia.
  - intros st r st' B. rewrite build_map in B. cbn [alloc_rec alloc] in B. apply bind_Ok in B as [[o st1] [B1 B]]. injection B as <- <-.
    destruct (H _ 0 _ _ _ (Nat.le_refl 0 : acc_filled (OMap []) 0) B1) as [B2 [F M]]. rewrite C_new in B2. apply acc_filled_cells in F. rewrite M in F.
    rewrite wc_map. eapply Nat.le_trans; [apply C_store|]. cbn [acc_max obj_cells length] in *. lia.
  - intros st r st' B. rewrite build_set in B. cbn [alloc_rec alloc] in B. apply bind_Ok in B as [[o st1] [B1 B]]. injection B as <- <-.
    destruct (proj1 H _ _ _ _ B1) as [B2 [m' [-> L]]]. rewrite C_new in B2.
    rewrite wc_set. eapply Nat.le_trans; [apply C_store|]. cbn [obj_cells length] in *. lia.
  - intros st r st' B. rewrite build_object in B. cbn [alloc_rec alloc] in B. apply bind_Ok in B as [[o st1] [B1 B]]. injection B as <- <-.
    destruct (H _ 0 _ _ _ (filled_empty : acc_filled (OObject jo_empty) 0) B1) as [B2 [F M]]. rewrite C_new in B2.
    rewrite wc_object. eapply Nat.le_trans; [apply C_store|]. destruct ps.
    + cbn in B1. injection B1 as <- <-. cbn in B2 |- *. lia.
    + apply acc_filled_cells in F. rewrite M in F. cbn [acc_max] in F. change (obj_cells (OObject jo_empty)) with 0 in B2. lia.
  - intros st r st' B. rewrite build_dense in B. cbn [alloc_rec alloc] in B. apply bind_Ok in B as [[o st1] [B1 B]].
    apply bind_Ok in B as [[o2 st2] [B2 B]]. injection B as <- <-.
    destruct (proj2 H _ _ 0 _ _ _ (filled_empty : acc_filled (OArray jo_empty) 0) B1) as [B3 [F M]]. rewrite C_new in B3.
    destruct (H0 _ _ _ _ _ F B2) as [B4 [F2 M2]]. apply acc_filled_cells in F2. rewrite M2, M in F2.
    rewrite wc_dense. eapply Nat.le_trans; [apply C_store|]. cbn [acc_max] in F2. change (obj_cells (OArray jo_empty)) with 0 in B3. lia.
  - intros st r st' B. rewrite build_sparse in B. cbn [alloc_rec alloc] in B. apply bind_Ok in B as [o [B1 B]].
    apply bind_Ok in B as [[o2 st2] [B2 B]]. injection B as <- <-.
    assert (acc_filled o 0 /\ acc_max o = acc_max (OArray jo_empty)) as [F M].
    { destruct (0 <? len)%N; [|injection B1 as <-; split; [apply filled_empty|reflexivity]].
      cbn [put] in B1. apply bind_Ok in B1 as [x [B1 B3]]. injection B3 as <-. split; [|reflexivity]. cbn [acc_filled].
      unfold jo_put in B1. cbn [val_key elem_of] in B1. apply bind_Ok in B1 as [p [N1 B1]].
      pose proof (norm_pok _ _ _ N1) as PK.
      destruct (jo_set jo_empty p None) as [[[]|e] o1] eqn:S1; [|discriminate]. injection B1 as <-.
      destruct p as [s|k].
      - cbn in S1. injection S1 as <-. apply filled_empty.
      - eapply filled_hole; eauto. }
    destruct (H _ _ _ _ _ F B2) as [B4 [F2 M2]]. apply acc_filled_cells in F2. rewrite M2, M in F2. rewrite C_new in B4.
    rewrite wc_sparse. eapply Nat.le_trans; [apply C_store|]. cbn [acc_max] in F2. change (obj_cells (OArray jo_empty)) with 0 in B4. lia.
  - intros st r st' B. cbn [build wc] in *. destruct (build_field msg st) as [m st1] eqn:B1.
    destruct (build_field stack st1) as [s st2] eqn:B2. cbn [alloc_rec alloc] in B. injection B as <- <-.
    apply C_field in B1. apply C_field in B2. rewrite C_new. cbn [obj_cells]. lia.
  - intros st r st' B. rewrite build_errorc in B. destruct (build_field msg st) as [m st1] eqn:B1.
    destruct (build_field stack st1) as [s st2] eqn:B2. cbn [alloc_rec alloc] in B.
    apply bind_Ok in B as [[c st3] [B3 B]]. destruct (build_field late st3) as [l st4] eqn:B4. injection B as <- <-.
    apply C_field in B1. apply C_field in B2. apply C_field in B4. apply H in B3. rewrite C_new in B3.
    rewrite wc_errorc. eapply Nat.le_trans; [apply C_store|]. cbn [obj_cells] in *. lia.
  - intros st r st' B. cbn [build wc] in *. destruct b; cbn [build_buf alloc_rec alloc] in B; apply C_view in B;
      rewrite B; cbn [record ds_heap]; rewrite cells_app; cbn [obj_cells buf_cells jb_data]; lia.
  - intros st r st' B. cbn [build wc] in *. destruct (id <? lenN (ds_log st))%N; [|discriminate B].
    destruct (nth_error (ds_log st) (N.to_nat id)) as [x|]; [|discriminate B].
    destruct v as [v|].
    + destruct x; try discriminate B. destruct (nth_error (ds_heap st) oid) as [x|]; [|discriminate B].
      destruct (is_buffer x); [|discriminate B]. apply C_view in B. rewrite B. reflexivity.
    + destruct x; injection B as <- <-; cbn [view_objs]; lia.
  - intros st r st' B. cbn [build wc] in *. destruct (c_host cfg); [|discriminate B].
    destruct (node_format code); [|discriminate B]. cbn [alloc] in B. injection B as <- <-. cbn [ds_heap].
    rewrite !cells_app. cbn [obj_cells jb_data]. lia.
  - split.
    + intros m st acc' st' B. cbn in B. injection B as <- <-. split; [cbn; lia|]. exists m. split; [reflexivity|cbn; lia].
    + intros i acc u st acc' st' F B. cbn in B. injection B as <- <-. cbn [vn wc_vals]. rewrite !Nat.add_0_r. split; [lia|]. split; [exact F|reflexivity].
  - destruct H0 as [H1 H2]. split.
    + intros m st acc' st' B. rewrite build_members_cons in B. apply bind_Ok in B as [[x st1] [B1 B]]. apply bind_Ok in B as [acc1 [P B]].
      cbn [put_member] in P. apply bind_Ok in P as [m1 [P1 P]]. injection P as <-.
      unfold js_add in P1. apply bind_Ok in P1 as [s [_ P1]]. injection P1 as <-.
      destruct (H1 _ _ _ _ B) as [C1 [m' [-> L]]]. apply H in B1. rewrite wc_vals_cons. cbn [vn]. split; [lia|].
      exists m'. split; [reflexivity|]. rewrite dset_length in L. destruct (dmem _ _ _); lia.
    + intros i acc u st acc' st' F B. rewrite build_elems_cons in B. apply bind_Ok in B as [[x st1] [B1 B]]. apply bind_Ok in B as [acc1 [P B]].
      destruct (put_filled _ _ _ _ _ F P) as [F1 M1]. destruct (H2 _ _ _ _ _ _ F1 B) as [C1 [F2 M2]]. apply H in B1.
      rewrite wc_vals_cons. cbn [vn]. split; [lia|]. split; [|congruence]. replace (u + S (vn r)) with (S u + vn r) by lia. exact F2.
  - intros acc u st acc' st' F B. cbn in B. injection B as <- <-. cbn [pn wc_pairs]. rewrite !Nat.add_0_r. split; [lia|]. split; [exact F|reflexivity].
  - intros acc u st acc' st' F B. rewrite build_pairs_cons in B. apply bind_Ok in B as [[x st1] [B1 B]].
    apply bind_Ok in B as [[y st2] [B2 B]]. apply bind_Ok in B as [acc1 [P B]].
    destruct (put_filled _ _ _ _ _ F P) as [F1 M1]. destruct (H1 _ _ _ _ _ F1 B) as [C1 [F2 M2]]. apply H in B1. apply H0 in B2.
    rewrite wc_pairs_cons. cbn [pn]. split; [lia|]. split; [|congruence]. replace (u + S (pn r)) with (S u + pn r) by lia. exact F2.
Qed.
End Build.
