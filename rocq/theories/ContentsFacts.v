(** Lemmas for C65. *)
From Coq Require Import List NArith ZArith Bool Lia ZifyBool ZifyNat ZifyN.
From Verif Require Import Base Dict ModelTags ModelPrim SpecPrim PrimFacts SpecArray ModelArray ArrayFacts ModelValue ValueFacts SpecNumber SpecKey KeyFacts SpecObject ModelObject ObjectFacts
  SpecObjectUse ModelObjectUse ObjectUseFacts SpecMap ModelMap MapFacts ModelBuffer ModelHeap SpecWire ModelDecode SpecBuild DecodeFacts DecodeSound BuildFacts BuildCell SpecContents.
Import ListNotations.
Open Scope nat_scope.

(** * Objects made before a value is read stay as they are *)
Notation H st := (length (ds_heap st)).
Definition keeps (st st' : dstate) : Prop := H st <= H st' /\ forall i, i < H st -> nth_error (ds_heap st') i = nth_error (ds_heap st) i.
Lemma keeps_refl st : keeps st st.
Proof. split; auto. Qed.
Lemma keeps_trans a b c : keeps a b -> keeps b c -> keeps a c.
Proof. intros [A B] [C D]. split; [lia|]. intros i L. rewrite D by lia. auto. Qed.
Lemma keeps_record v st : keeps st (record v st).
Proof. split; auto. Qed.
Lemma keeps_str enc s st : keeps st (build_str enc s st).
Proof. unfold build_str. destruct (stag_eqb _ _); [apply keeps_record|apply keeps_refl]. Qed.
Lemma keeps_field f st s st' : build_field f st = (s, st') -> keeps st st'.
Proof. destruct f as [[enc t]|]; cbn; intros E; injection E as <- <-; [apply keeps_str|apply keeps_refl]. Qed.
Lemma keeps_alloc x st : keeps st (snd (alloc x st)).
Proof. split; cbn; [rewrite app_length; lia|]. intros i L. apply nth_error_app1, L. Qed.
Lemma keeps_begun x st : keeps st (begun x st).
Proof. split; cbn; [rewrite app_length; lia|]. intros i L. apply nth_error_app1, L. Qed.
Lemma alloc_begun x st : alloc_rec x st = (H st, begun x st).
Proof. reflexivity. Qed.
Lemma begun_len x st : H (begun x st) = S (H st).
Proof. cbn. rewrite app_length. cbn. lia. Qed.
Lemma keeps_store i x st st' : keeps st st' -> H st <= i -> keeps st (store i x st').
Proof.
  intros [A B] L. split; cbn; [rewrite heap_set_length; exact A|]. intros j J. rewrite <- (B j J). apply set_nth_other. lia.
Qed.
Lemma keeps_view b v st x st' : build_view b v st = Ok (x, st') -> keeps st st'.
Proof.
  destruct v as [v|]; cbn; intros E; [|injection E as <- <-; apply keeps_refl].
  apply bind_Ok in E as [y [_ E]]. cbn in E. injection E as <- <-. apply (keeps_begun (OView b y) st).
Qed.
Lemma keeps_buf b st i st' : build_buf b st = (i, st') -> keeps st st'.
Proof.
  destruct b; cbn [build_buf]; intros E.
  - rewrite alloc_begun in E. injection E as <- <-. apply keeps_begun.
  - rewrite alloc_begun in E. injection E as <- <-. apply keeps_begun.
  - injection E as <- <-. apply (keeps_alloc (OShared id) st).
  - injection E as <- <-. apply (keeps_alloc (OTransfer id) st).
Qed.

(** Every container made is made by reading a part. *)
Section Made.
Variable cfg : dcfg.
Definition made (w : wval) (st2 : dstate) (i : nat) : Prop :=
  is_container w /\ exists st st1, build cfg w st = Ok (VRef i, st1) /\ i = H st /\ nth_error (ds_heap st1) i = nth_error (ds_heap st2) i.
Definition news (P : wval -> Prop) (st st' : dstate) : Prop :=
  keeps st st' /\ forall i x, H st <= i -> nth_error (ds_heap st') i = Some x -> container x -> exists w, P w /\ made w st' i.

Lemma news_none (P : wval -> Prop) st st' : keeps st st' -> (forall i x, H st <= i -> nth_error (ds_heap st') i = Some x -> ~ container x) -> news P st st'.
Proof. intros K N. split; [exact K|]. intros i x L E C. destruct (N i x L E C). Qed.
Lemma news_same P st st' : ds_heap st' = ds_heap st -> news P st st'.
Proof.
  intros E. apply news_none; [split; rewrite E; auto|]. intros i x L X. rewrite E in X.
  assert (i < H st) by (apply nth_error_Some; congruence). lia.
Qed.
Lemma news_mono (P Q : wval -> Prop) st st' : (forall w, P w -> Q w) -> news P st st' -> news Q st st'.
Proof. intros I [K N]. split; [exact K|]. intros i x L E C. destruct (N i x L E C) as [w [A B]]. eauto. Qed.
Lemma made_keeps w st st' i : keeps st st' -> i < H st -> made w st i -> made w st' i.
Proof. intros [_ K] L (W & s & s1 & A & B & C). split; [exact W|]. exists s, s1. rewrite K by exact L. auto. Qed.
Lemma news_trans P a b c : news P a b -> news P b c -> news P a c.
Proof.
  intros [K1 N1] [K2 N2]. split; [eapply keeps_trans; eauto|]. intros i x L E C.
  destruct (Nat.lt_ge_cases i (H b)) as [I|I].
  - rewrite (proj2 K2) in E by exact I. destruct (N1 i x L E C) as [w [A B]]. exists w. split; [exact A|]. eapply made_keeps; eauto.
  - eapply N2; eauto.
Qed.
Lemma news_one P st x : ~ container x -> news P st (mkD (ds_heap st ++ [x]) (ds_log st ++ [VRef (H st)])) .
Proof.
  intros N. apply news_none; [apply (keeps_begun x st)|]. cbn. intros i y L E.
  rewrite nth_error_app2 in E by exact L. destruct (i - H st) as [|k]; cbn in E; [injection E as <-; exact N|]. destruct k; discriminate E.
Qed.
Lemma news_alloc P st x : ~ container x -> news P st (snd (alloc x st)).
Proof.
  intros N. apply news_none; [apply (keeps_alloc x st)|]. cbn. intros i y L E.
  rewrite nth_error_app2 in E by exact L. destruct (i - H st) as [|k]; cbn in E; [injection E as <-; exact N|]. destruct k; discriminate E.
Qed.
Lemma heap_str enc s st : ds_heap (build_str enc s st) = ds_heap st.
Proof. unfold build_str. destruct (stag_eqb _ _); reflexivity. Qed.
Lemma heap_field f st s st' : build_field f st = (s, st') -> ds_heap st' = ds_heap st.
Proof. destruct f as [[enc t]|]; cbn; intros E; injection E as <- <-; [apply heap_str|reflexivity]. Qed.
Lemma news_view P b v st x st' : build_view b v st = Ok (x, st') -> news P st st'.
Proof.
  destruct v as [v|]; cbn; intros E; [|injection E as <- <-; apply news_same; reflexivity].
  apply bind_Ok in E as [y [_ E]]. cbn in E. injection E as <- <-. apply (news_one P st (OView b y)). intros [].
Qed.
(** The object begun at [H st], its entries read, then the object stored. *)
Lemma news_filled (P : wval -> Prop) w st x st1 y : build cfg w st = Ok (VRef (H st), store (H st) y st1) -> P w -> is_container w ->
  news P (begun x st) st1 -> news P st (store (H st) y st1).
Proof.
  intros B Pw W [K N]. rewrite begun_len in *. destruct K as [K1 K2]. rewrite begun_len in K1, K2. split.
  - apply keeps_store; [|lia]. eapply keeps_trans; [apply keeps_begun|]. split; [rewrite begun_len; exact K1|]. rewrite begun_len. exact K2.
  - intros i z L E C. destruct (Nat.eq_dec i (H st)) as [->|NE].
    + exists w. split; [exact Pw|]. split; [exact W|]. exists st, (store (H st) y st1). auto.
    + cbn in E. rewrite set_nth_other in E by lia. destruct (N i z ltac:(lia) E C) as (w' & A & W' & s & s1 & B1 & B2 & B3).
      exists w'. split; [exact A|]. split; [exact W'|]. exists s, s1. split; [exact B1|]. split; [exact B2|]. cbn. rewrite set_nth_other by lia. exact B3.
Qed.

Definition news_w w := forall st v st', build cfg w st = Ok (v, st') -> news (fun p => part p w) st st'.
Definition news_vs vs := (forall acc st acc' st', build_members cfg vs acc st = Ok (acc', st') -> news (fun p => part_vals p vs) st st') /\
  (forall k acc st acc' st', build_elems cfg vs k acc st = Ok (acc', st') -> news (fun p => part_vals p vs) st st').
Definition news_ps ps := forall acc st acc' st', build_pairs cfg ps acc st = Ok (acc', st') -> news (fun p => part_pairs p ps) st st'.
Theorem build_news : (forall w, news_w w) /\ (forall vs, news_vs vs) /\ (forall ps, news_ps ps).
Proof.
  apply wval_mutind.
  - intros t st v st' B. injection B as <- <-. apply news_same; reflexivity.
  - intros t st v st' B. injection B as <- <-. apply news_same; reflexivity.
  - intros t st v st' B. injection B as <- <-. apply news_same; reflexivity.
  - intros t st v st' B. injection B as <- <-. apply news_same; reflexivity.
  - intros t st v st' B. injection B as <- <-. apply news_same; reflexivity.
  - intros enc s st v st' B. injection B as <- <-. apply news_same, heap_str.
  - intros t st v st' B. injection B as <- <-. apply news_same; reflexivity.
  - intros t st v st' B. injection B as <- <-. apply news_same; reflexivity.
  - intros t st v st' B. injection B as <- <-. apply news_same; reflexivity.
  - intros b st v st' B. cbn [build] in B. destruct (c_date cfg b); [|discriminate B]. rewrite alloc_begun in B. injection B as <- <-.
    apply news_one. intros [].
  - intros enc s fl st v st' B. cbn [build] in B. cbv zeta in B. apply bind_Ok in B as [o [R B]]. rewrite alloc_begun in B. injection B as <- <-.
    eapply news_trans; [apply news_same, (heap_str enc s)|]. apply news_one. unfold regexp_new in R.
    destruct o; cbn; auto; intros _; repeat match type of R with context [if ?c then _ else _] => destruct c end; discriminate R.
  - intros ps IH st v st' B. pose proof B as B0. rewrite build_map in B. rewrite alloc_begun in B.
    apply bind_Ok in B as [[o s1] [B1 B]]. injection B as <- <-. refine (news_filled _ _ _ _ _ _ B0 _ _ _); [apply pt_self|exact I|].
    eapply news_mono; [|apply (IH _ _ _ _ B1)]. intros w. apply pt_map.
  - intros vs [IH _] st v st' B. pose proof B as B0. rewrite build_set in B. rewrite alloc_begun in B.
    apply bind_Ok in B as [[o s1] [B1 B]]. injection B as <- <-. refine (news_filled _ _ _ _ _ _ B0 _ _ _); [apply pt_self|exact I|].
    eapply news_mono; [|apply (IH _ _ _ _ B1)]. intros w. apply pt_set.
  - intros ps IH st v st' B. pose proof B as B0. rewrite build_object in B. rewrite alloc_begun in B.
    apply bind_Ok in B as [[o s1] [B1 B]]. injection B as <- <-. refine (news_filled _ _ _ _ _ _ B0 _ _ _); [apply pt_self|exact I|].
    eapply news_mono; [|apply (IH _ _ _ _ B1)]. intros w. apply pt_object.
  - intros vs [_ IH] ps IHp st v st' B. pose proof B as B0. rewrite build_dense in B. rewrite alloc_begun in B.
    apply bind_Ok in B as [[o s1] [B1 B]]. apply bind_Ok in B as [[o2 s2] [B2 B]]. injection B as <- <-.
    refine (news_filled _ _ _ _ _ _ B0 _ _ _); [apply pt_self|exact I|]. eapply news_trans.
    + eapply news_mono; [|apply (IH _ _ _ _ _ B1)]. intros w. apply pt_dense_values.
    + eapply news_mono; [|apply (IHp _ _ _ _ B2)]. intros w. apply pt_dense_pairs.
  - intros n ps IH st v st' B. pose proof B as B0. rewrite build_sparse in B. rewrite alloc_begun in B.
    apply bind_Ok in B as [o [_ B]]. apply bind_Ok in B as [[o2 s1] [B1 B]]. injection B as <- <-. refine (news_filled _ _ _ _ _ _ B0 _ _ _); [apply pt_self|exact I|].
    eapply news_mono; [|apply (IH _ _ _ _ B1)]. intros w. apply pt_sparse.
  - intros name msg stack st v st' B. cbn [build] in B. destruct (build_field msg st) as [m s1] eqn:F1.
    destruct (build_field stack s1) as [k s2] eqn:F2. rewrite alloc_begun in B. injection B as <- <-.
    eapply news_trans; [apply news_same, (heap_field _ _ _ _ F1)|]. eapply news_trans; [apply news_same, (heap_field _ _ _ _ F2)|].
    apply news_one. intros [].
  - intros name msg stack c IH late st v st' B. rewrite build_errorc in B. destruct (build_field msg st) as [m s1] eqn:F1.
    destruct (build_field stack s1) as [k s2] eqn:F2. rewrite alloc_begun in B. apply bind_Ok in B as [[cv s3] [B1 B]].
    destruct (build_field late s3) as [l s4] eqn:F3. injection B as <- <-.
    eapply news_trans; [apply news_same, (heap_field _ _ _ _ F1)|]. eapply news_trans; [apply news_same, (heap_field _ _ _ _ F2)|].
    apply IH in B1. assert (N3 : news (fun p => part p c) (begun (OError (proto_name name) (message_of m) k VNone) s2) s4).
    { eapply news_trans; [exact B1|]. apply news_same, (heap_field _ _ _ _ F3). }
    destruct N3 as [[K1 K2] N3]. rewrite begun_len in *. split.
    + apply keeps_store; [|lia]. eapply keeps_trans; [apply keeps_begun|]. split; rewrite begun_len; eauto.
    + intros i z L E C. cbn in E. destruct (Nat.eq_dec i (H s2)) as [->|NE].
      * rewrite set_nth_same in E by lia. injection E as <-. destruct C.
      * rewrite set_nth_other in E by lia. destruct (N3 i z ltac:(lia) E C) as (w' & A & W' & s & s' & E1 & E2 & E3).
        exists w'. split; [apply pt_cause, A|]. split; [exact W'|]. exists s, s'. split; [exact E1|]. split; [exact E2|]. cbn. rewrite set_nth_other by lia. exact E3.
  - intros b v st x st' B. cbn [build] in B. destruct (build_buf b st) as [j s] eqn:E. eapply news_trans; [|eapply news_view; exact B].
    destruct b; cbn [build_buf] in E; try rewrite alloc_begun in E; injection E as <- <-;
      first [apply news_one; intros []|apply (news_alloc _ st (OShared id)); intros []|apply (news_alloc _ st (OTransfer id)); intros []].
  - intros id v st x st' B. cbn [build] in B. destruct (id <? lenN (ds_log st))%N; [|discriminate B].
    destruct (nth_error (ds_log st) (N.to_nat id)) as [y|]; [|discriminate B]. destruct v as [v|].
    + destruct y; try discriminate B. destruct (nth_error (ds_heap st) oid) as [z|]; [|discriminate B].
      destruct (is_buffer z); [|discriminate B]. eapply news_view; exact B.
    + destruct y; injection B as <- <-; apply news_same; reflexivity.
  - intros id st v st' B. cbn [build] in B. rewrite alloc_begun in B. injection B as <- <-. apply news_one. intros [].
  - intros code d st v st' B. cbn [build] in B. destruct (c_host cfg); [|discriminate B]. destruct (node_format code) as [vt|]; [|discriminate B].
    cbn [alloc] in B. injection B as <- <-.
    eapply news_trans; [apply (news_alloc _ st (OBuffer (mkBuf d (zlen d) false false))); intros []|].
    apply (news_alloc _ (snd (alloc (OBuffer (mkBuf d (zlen d) false false)) st)) (OView (H st) (mkView vt 0 None false))). intros [].
  - split; intros; cbn in *; match goal with X : Ok _ = Ok _ |- _ => injection X as <- <- end; apply news_same; reflexivity.
  - intros w IH r [IH1 IH2]. split.
    + intros acc st acc' st' B. rewrite build_members_cons in B. apply bind_Ok in B as [[x s1] [B1 B]]. apply bind_Ok in B as [a1 [_ B]].
      eapply news_trans; [eapply news_mono; [|apply (IH _ _ _ B1)]; intros; apply pv_here; auto|].
      eapply news_mono; [|apply (IH1 _ _ _ _ B)]; intros; apply pv_later; auto.
    + intros k acc st acc' st' B. rewrite build_elems_cons in B. apply bind_Ok in B as [[x s1] [B1 B]]. apply bind_Ok in B as [a1 [_ B]].
      eapply news_trans; [eapply news_mono; [|apply (IH _ _ _ B1)]; intros; apply pv_here; auto|].
      eapply news_mono; [|apply (IH2 _ _ _ _ _ B)]; intros; apply pv_later; auto.
  - intros acc st acc' st' B. cbn in B. injection B as <- <-. apply news_same; reflexivity.
  - intros k IHk v IHv r IHr acc st acc' st' B. rewrite build_pairs_cons in B. apply bind_Ok in B as [[x s1] [B1 B]].
    apply bind_Ok in B as [[y s2] [B2 B]]. apply bind_Ok in B as [a1 [_ B]].
    eapply news_trans; [eapply news_mono; [|apply (IHk _ _ _ B1)]; intros; apply pp_key; auto|].
    eapply news_trans; [eapply news_mono; [|apply (IHv _ _ _ B2)]; intros; apply pp_value; auto|].
    eapply news_mono; [|apply (IHr _ _ _ _ B)]; intros; apply pp_later; auto.
Qed.
End Made.

(** * What the containers contain *)
Section Fill.
Variable cfg : dcfg.
Notation norm := (normalise_property_key (c_float_repr cfg)).

Lemma val_key_as v k : val_key v = Some k -> as_key v k.
Proof. destruct v; cbn; intros E; inversion E; constructor. Qed.
Lemma elem_as v : as_element v (elem_of v).
Proof. destruct v; cbn; constructor; discriminate. Qed.

(** [o] with some reference left behind stands for [st]. *)
Definition holds (o : jsobj val) (st : ustate val) : Prop := exists left, stands (mkUse o left) st.
Lemma holds_empty : holds jo_empty (mkUState [] [] None).
Proof. exists None. exact stands_fresh. Qed.
Lemma holds_shows o st : holds o st -> shows cfg o (elems st) (named st).
Proof.
  intros [left St]. exists left, (old st). intros ops tr u' E. destruct st as [l d old]. cbn [elems named SpecObjectUse.old].
  destruct (use_ops_ok (c_float_repr cfg) ops _ _ _ _ St E) as [A [st' [_ B]]]. eauto.
Qed.
Lemma holds_set o st p v o' : holds o st -> pok p -> jo_set o p v = (Ok tt, o') -> holds o' (SpecObjectUse.store st p v).
Proof.
  intros [left St] P E. destruct (stands_set _ _ p v St P) as (r & u' & A & B & _). unfold use_set in A. cbn [u_obj u_left] in A.
  rewrite E in A. injection A as <- <-. eexists. exact B.
Qed.
Lemma norm_pok k p : norm k = Ok p -> pok p.
Proof. destruct p as [s|z]; cbn; auto. intros E. apply normalise_index in E as [A _]. exact A. Qed.

Lemma put_holds acc o k v acc' st : (acc = OObject o \/ acc = OArray o) -> holds o st -> put cfg acc k v = Ok acc' ->
  exists o' q, (acc = OObject o -> acc' = OObject o') /\ (acc = OArray o -> acc' = OArray o') /\
    (exists y, as_key k y /\ norm y = Ok q) /\ holds o' (SpecObjectUse.store st q (elem_of v)).
Proof.
  intros A St E.
  assert (exists o', jo_put (c_float_repr cfg) o k v = Ok o' /\ (acc = OObject o -> acc' = OObject o') /\ (acc = OArray o -> acc' = OArray o')) as (o' & J & X & Y).
  { destruct A as [->| ->]; cbn in E; apply bind_Ok in E as [o' [J E]]; injection E as <-; exists o'; (split; [exact J|]); split; congruence. }
  exists o'. unfold jo_put in J. destruct (val_key k) as [y|] eqn:K; [|discriminate J]. apply bind_Ok in J as [q [Q J]].
  exists q. split; [exact X|]. split; [exact Y|]. split; [exists y; split; [apply val_key_as, K|exact Q]|].
  destruct (jo_set o q (elem_of v)) as [[[]|e] o1] eqn:S; [|discriminate J]. injection J as <-.
  eapply holds_set; eauto using norm_pok.
Qed.

Definition kind (a : bool) (o : jsobj val) : obj := if a then OArray o else OObject o.
Lemma pairs_holds a ps : forall o st s acc' s', holds o s -> build_pairs cfg ps (kind a o) st = Ok (acc', s') ->
  exists o' items qs, acc' = kind a o' /\ pairs_read cfg ps st items s' /\ assignments cfg items qs /\ holds o' (store_all s qs).
Proof.
  induction ps as [|k v r IH]; intros o st s acc' s' Hs B.
  - cbn in B. injection B as <- <-. exists o, [], []. repeat split; [constructor|constructor|exact Hs].
  - rewrite build_pairs_cons in B. apply bind_Ok in B as [[kv s1] [B1 B]]. apply bind_Ok in B as [[vv s2] [B2 B]]. apply bind_Ok in B as [a1 [P B]].
    assert (KO : kind a o = OObject o \/ kind a o = OArray o) by (destruct a; cbn; auto).
    destruct (put_holds _ o kv vv a1 s KO Hs P) as (o1 & q & X & Y & Q & Ho).
    assert (a1 = kind a o1) as -> by (destruct a; cbn in *; auto).
    destruct (IH _ _ _ _ _ Ho B) as (o' & items & qs & E & R & A & F). exists o', ((kv, vv) :: items), ((q, elem_of vv) :: qs).
    split; [exact E|]. split; [econstructor; eauto|]. split; [|exact F]. constructor; [|exact A]. cbn. split; [exact Q|apply elem_as].
Qed.

Lemma elems_holds vs : forall o st s k acc' s', holds o s -> build_elems cfg vs k (OArray o) st = Ok (acc', s') ->
  exists o' values qs, acc' = OArray o' /\ values_read cfg vs st values s' /\ assignments cfg (numbered k values) qs /\ holds o' (store_all s qs).
Proof.
  induction vs as [|w r IH]; intros o st s k acc' s' Hs B.
  - cbn in B. injection B as <- <-. exists o, [], []. repeat split; [constructor|constructor|exact Hs].
  - rewrite build_elems_cons in B. apply bind_Ok in B as [[v s1] [B1 B]]. apply bind_Ok in B as [a1 [P B]].
    destruct (put_holds _ o _ v a1 _ (or_intror eq_refl) Hs P) as (o1 & q & _ & Y & Q & Ho). rewrite (Y eq_refl) in B. clear Y.
    destruct (IH _ _ _ _ _ _ Ho B) as (o' & values & qs & E & R & F & X).
    exists o', (v :: values), ((q, elem_of v) :: qs). split; [exact E|]. split; [econstructor; eauto|]. split; [|exact X].
    cbn [numbered]. constructor; [|exact F]. cbn. split; [exact Q|apply elem_as].
Qed.
Lemma store_all_app (s : ustate val) a b : store_all s (a ++ b) = store_all (store_all s a) b.
Proof. revert s. induction a as [|[k v] a IH]; intros s; cbn; auto. Qed.

Lemma place_end (l : list (option val)) v : place l (length l) v = l ++ [v].
Proof. rewrite place_out by lia. rewrite Nat.sub_diag. reflexivity. Qed.
(** The elements of a dense array, in order. *)
Lemma numbered_elements values : forall k qs (s : ustate val), assignments cfg (numbered k values) qs -> named s = [] ->
  Z.of_N k = Z.of_nat (length (elems s)) -> (Z.of_N k + Z.of_nat (length values) < 2 ^ 32)%Z ->
  exists es, Forall2 as_element values es /\ elems (store_all s qs) = elems s ++ es /\ named (store_all s qs) = [].
Proof.
  induction values as [|v r IH]; intros k qs s A N0 K L; inversion A as [|x [q e] xs ys [(y & AK & Q) AE] A']; subst; cbn [fst snd] in *.
  - exists []. cbn. rewrite app_nil_r. auto.
  - inversion AK; subst. cbn [length] in L.
    assert (norm (KInt (Z.of_N k)) = Ok (PInt (Z.of_N k))) as Q' by (apply normalise_index; split; [unfold array_index; lia|reflexivity]).
    rewrite Q' in Q. injection Q as <-. cbn [store_all].
    assert (EE : elems (SpecObjectUse.store s (PInt (Z.of_N k)) e) = elems s ++ [e]).
    { cbn [SpecObjectUse.store elems]. replace (Z.to_nat (Z.of_N k)) with (length (elems s)) by lia. apply place_end. }
    destruct (IH (k + 1)%N ys (SpecObjectUse.store s (PInt (Z.of_N k)) e) A') as (es & F & X & Y).
    + cbn. exact N0.
    + rewrite EE, app_length. cbn [length]. lia.
    + lia.
    + exists (e :: es). split; [constructor; auto|]. rewrite EE, <- app_assoc in X. auto.
Qed.
(** The hole assigned at the last index of a sparse array makes it that long. *)
Lemma sparse_start len o : (if 0 <? len then put cfg (OArray jo_empty) (VInt (Z.of_N len - 1)) VHole else Ok (OArray jo_empty))%N = Ok o ->
  exists o' st, o = OArray o' /\ holds o' st /\ named st = [] /\ elems st = if (len <? 2 ^ 32)%N then repeat None (N.to_nat len) else [].
Proof.
  intros E. destruct (0 <? len)%N eqn:Z0.
  - destruct (put_holds _ _ _ _ _ _ (or_intror eq_refl) holds_empty E) as (o' & q & _ & Y & (y & AK & Q) & Ho).
    exists o'. eexists. split; [apply Y; reflexivity|]. split; [exact Ho|]. inversion AK; subst. destruct (N.ltb_spec len (2 ^ 32)) as [L|L].
    + assert (norm (KInt (Z.of_N len - 1)) = Ok (PInt (Z.of_N len - 1))) as Q' by (apply normalise_index; split; [unfold array_index; lia|reflexivity]).
      rewrite Q' in Q. injection Q as <-. cbn [SpecObjectUse.store elem_of elems named]. split; [reflexivity|].
      rewrite place_out by (cbn; lia). cbn [length app]. rewrite Nat.sub_0_r.
      change [@None val] with (repeat (@None val) 1). rewrite <- repeat_app. f_equal. lia.
    + destruct q as [t|z].
      * cbn. auto.
      * apply normalise_index in Q as [A D]. cbn in D. unfold array_index in A. lia.
  - injection E as <-. exists jo_empty, (mkUState [] [] None). split; [reflexivity|]. split; [apply holds_empty|]. split; [reflexivity|].
    assert (len = 0%N) as -> by lia. reflexivity.
Qed.
(** The elements and named properties do not depend on the references left behind. *)
Lemma store_all_cut qs : forall s s' : ustate val, elems s = elems s' -> named s = named s' ->
  elems (store_all s qs) = elems (store_all s' qs) /\ named (store_all s qs) = named (store_all s' qs).
Proof.
  induction qs as [|[[t|z] v] r IH]; intros s s' A B; cbn; auto; apply IH; cbn; rewrite ?A, ?B; reflexivity.
Qed.
Lemma holds_result o st l qs : holds o (store_all st qs) -> elems st = l -> named st = [] -> shows_result cfg o l qs.
Proof.
  intros Ho A B. unfold shows_result, result_of. cbn [fst snd].
  destruct (store_all_cut qs st (mkUState l [] None) A B) as [<- <-]. apply holds_shows, Ho.
Qed.

Lemma map_holds ps : forall m st acc' s', cinv no_bytes (@fst val val) m -> build_pairs cfg ps (OMap m) st = Ok (acc', s') ->
  exists m' items, acc' = OMap m' /\ cinv no_bytes (@fst val val) m' /\ pairs_read cfg ps st items s' /\ put_entries no_bytes (map snd m) items (map snd m').
Proof.
  induction ps as [|k v r IH]; intros m st acc' s' I B.
  - cbn in B. injection B as <- <-. exists m, []. repeat split; try apply I; constructor.
  - rewrite build_pairs_cons in B. apply bind_Ok in B as [[kv s1] [B1 B]]. apply bind_Ok in B as [[vv s2] [B2 B]]. apply bind_Ok in B as [a1 [P B]].
    cbn [put] in P. apply bind_Ok in P as [m1 [P E]]. injection E as <-. pose proof (jm_set_spec no_bytes m kv vv I) as S. rewrite P in S.
    destruct S as (I1 & NH & PE). destruct (IH _ _ _ _ I1 B) as (m' & items & -> & I' & R & Q). exists m', ((kv, vv) :: items).
    split; [reflexivity|]. split; [exact I'|]. split; [econstructor; eauto|]. econstructor; eauto.
Qed.
Lemma set_holds vs : forall m st acc' s', cinv no_bytes (fun k : val => k) m -> build_members cfg vs (OSet m) st = Ok (acc', s') ->
  exists m' items, acc' = OSet m' /\ cinv no_bytes (fun k : val => k) m' /\ values_read cfg vs st items s' /\ add_members no_bytes (map snd m) items (map snd m').
Proof.
  induction vs as [|w r IH]; intros m st acc' s' I B.
  - cbn in B. injection B as <- <-. exists m, []. repeat split; try apply I; constructor.
  - rewrite build_members_cons in B. apply bind_Ok in B as [[v s1] [B1 B]]. apply bind_Ok in B as [a1 [P B]].
    cbn [put_member] in P. apply bind_Ok in P as [m1 [P E]]. injection E as <-. pose proof (js_add_spec no_bytes m v I) as S. rewrite P in S.
    destruct S as (I1 & NH & PE). destruct (IH _ _ _ _ I1 B) as (m' & items & -> & I' & R & Q). exists m', (v :: items).
    split; [reflexivity|]. split; [exact I'|]. split; [econstructor; eauto|]. econstructor; eauto.
Qed.
Lemma pairs_keeps ps acc st acc' st' : build_pairs cfg ps acc st = Ok (acc', st') -> keeps st st'.
Proof. intros B. apply (proj2 (proj2 (build_news cfg)) ps) in B. apply B. Qed.
Lemma elems_keeps vs k acc st acc' st' : build_elems cfg vs k acc st = Ok (acc', st') -> keeps st st'.
Proof. intros B. apply (proj1 (proj2 (build_news cfg)) vs) in B. apply B. Qed.
Lemma members_keeps vs acc st acc' st' : build_members cfg vs acc st = Ok (acc', st') -> keeps st st'.
Proof. intros B. apply (proj1 (proj2 (build_news cfg)) vs) in B. apply B. Qed.
Lemma stored x st st1 y : keeps (begun x st) st1 -> nth_error (ds_heap (store (H st) y st1)) (H st) = Some y.
Proof. intros [K _]. rewrite begun_len in K. cbn. apply set_nth_same. lia. Qed.

Lemma cmap_shows m : cinv no_bytes (@fst val val) m -> map_shows m (map snd m).
Proof. intros I ops tr m' E. destruct (jm_ops_refines no_bytes ops m tr m' I E) as [_ K]. eauto. Qed.
Lemma cset_shows m : cinv no_bytes (fun k : val => k) m -> set_shows m (map snd m).
Proof. intros I ops tr m' E. destruct (js_ops_refines no_bytes ops m tr m' I E) as [_ K]. eauto. Qed.

Theorem build_filled w st v st' : is_container w -> build cfg w st = Ok (v, st') ->
  exists x, v = VRef (H st) /\ nth_error (ds_heap st') (H st) = Some x /\ filled cfg w st x.
Proof.
  intros C B. destruct w; try destruct C.
  - rewrite build_map, alloc_begun in B. apply bind_Ok in B as [[x s1] [B1 B]]. injection B as <- <-. exists x. split; [reflexivity|].
    split; [eapply stored, pairs_keeps, B1|]. destruct (map_holds _ _ _ _ _ (cinv_nil _ _) B1) as (m' & items & -> & I & R & P).
    econstructor; eauto using cmap_shows.
  - rewrite build_set, alloc_begun in B. apply bind_Ok in B as [[x s1] [B1 B]]. injection B as <- <-. exists x. split; [reflexivity|].
    split; [eapply stored, members_keeps, B1|]. destruct (set_holds _ _ _ _ _ (cinv_nil _ _) B1) as (m' & items & -> & I & R & P).
    econstructor; eauto using cset_shows.
  - rewrite build_object, alloc_begun in B. apply bind_Ok in B as [[x s1] [B1 B]]. injection B as <- <-. exists x. split; [reflexivity|].
    split; [eapply stored, pairs_keeps, B1|]. destruct (pairs_holds false _ _ _ _ _ _ holds_empty B1) as (o & items & qs & -> & R & A & Ho).
    eapply fl_object; eauto. eapply holds_result; eauto.
  - rewrite build_dense, alloc_begun in B. apply bind_Ok in B as [[y s1] [B1 B]]. apply bind_Ok in B as [[x s2] [B2 B]]. injection B as <- <-.
    exists x. split; [reflexivity|]. split; [eapply stored, keeps_trans; [eapply elems_keeps, B1|eapply pairs_keeps, B2]|].
    destruct (elems_holds _ _ _ _ _ _ _ holds_empty B1) as (o1 & values & qs1 & -> & R1 & A1 & H1).
    destruct (pairs_holds true _ _ _ _ _ _ H1 B2) as (o & items & qs & -> & R & A & Ho). rewrite <- store_all_app in Ho.
    eapply fl_dense; eauto; [apply Forall2_app; eauto|]. eapply holds_result; eauto.
  - rewrite build_sparse, alloc_begun in B. apply bind_Ok in B as [y [B1 B]]. apply bind_Ok in B as [[x s2] [B2 B]]. injection B as <- <-.
    exists x. split; [reflexivity|]. split; [eapply stored, pairs_keeps, B2|].
    destruct (sparse_start len y B1) as (o1 & s & -> & H1 & N1 & E1).
    destruct (pairs_holds true _ _ _ _ _ _ H1 B2) as (o & items & qs & -> & R & A & Ho).
    eapply fl_sparse; eauto. eapply holds_result; eauto.
Qed.
End Fill.
