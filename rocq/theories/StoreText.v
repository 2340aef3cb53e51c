(** The strings and ints of what loads builds, for C71. *)
From Coq Require Import List NArith ZArith Bool Lia ZifyBool ZifyNat ZifyN Sorting.Sorted.
From Verif Require Import Base Dict ModelTags SpecPrim SpecArray ModelArray ArrayFacts ArrayFacts2 ArrayFacts3 ModelValue ValueFacts SpecNumber SpecKey KeyFacts
  SpecObject ModelObject ObjectFacts ArrayBuild ModelMap ModelBuffer ModelHeap ModelDecode SpecWire SpecBuild PrimFacts DecodeFacts DecodeSound BuildFacts SpecStore StoreFacts.
Import ListNotations.
Open Scope nat_scope.

(** * What a container holds after an assignment *)
Section Holds.
Context {T : Type}.
Lemma arr_vals_elem (a : arr T) v : arr_ok a -> (In v (arr_vals a) <-> exists z, elem_at (aabs a) z = Some v).
Proof.
  intros A. destruct a as [d|s]; cbn [arr_vals aabs] in *.
  - rewrite in_flat_map. split.
    + intros [[x|] [I J]]; cbn in J; [|contradiction]. destruct J as [->|[]]. apply In_nth_error in I as [n E].
      exists (Z.of_nat n). unfold elem_at. replace (Z.of_nat n <? 0)%Z with false by lia. rewrite Nat2Z.id, E. reflexivity.
    + intros [z E]. unfold elem_at in E. destruct (z <? 0)%Z; [discriminate|].
      destruct (nth_error (d_items d) (Z.to_nat z)) as [x|] eqn:E2; [|discriminate]. subst x. exists (Some v).
      split; [eapply nth_error_In; eauto|left; reflexivity].
  - destruct A as [N [B [M _]]]. rewrite in_map_iff. split.
    + intros [[k x] [E I]]. cbn in E. subst x. exists k.
      assert (0 <= k <= s_max s)%Z as BK by (apply B; apply in_map_iff; exists (k, v); auto).
      unfold elem_at, sabs. replace (k <? 0)%Z with false by lia. rewrite items_abs_nth.
      replace (Z.to_nat k <? Z.to_nat (sparse_len s)) with true by (unfold sparse_len; lia).
      rewrite Z2Nat.id by lia. apply (in_dget _ zeqb_spec); auto.
    + intros [z E]. unfold elem_at, sabs in E. destruct (z <? 0)%Z; [discriminate|]. rewrite items_abs_nth in E.
      destruct (Z.to_nat z <? _); [|discriminate]. apply (dget_Some_in _ zeqb_spec) in E. eexists (_, v). eauto.
Qed.
Lemma dset_snd {K} (eqb : K -> K -> bool) (k : K) (v : T) d x : In x (map snd (dset eqb k v d)) -> x = v \/ In x (map snd d).
Proof.
  induction d as [|[a b] d IH]; cbn.
  - intros [H|[]]; auto.
  - destruct (eqb k a); cbn.
    + intros [H|H]; auto.
    + intros [H|H]; auto. apply IH in H. tauto.
Qed.
Lemma ddel_snd {K} (eqb : K -> K -> bool) (k : K) d (x : T) : In x (map snd (ddel eqb k d)) -> In x (map snd d).
Proof. induction d as [|[a b] d IH]; cbn; auto. destruct (eqb k a); cbn; tauto. Qed.
Lemma dset_fst {K} (eqb : K -> K -> bool) (k : K) (v : T) d x : In x (map fst (dset eqb k v d)) -> x = k \/ In x (map fst d).
Proof.
  induction d as [|[a b] d IH]; cbn.
  - intros [H|[]]; auto.
  - destruct (eqb k a); cbn.
    + intros [H|H]; auto.
    + intros [H|H]; auto. apply IH in H. tauto.
Qed.
Lemma ddel_fst {K} (eqb : K -> K -> bool) (k : K) (d : list (K * T)) x : In x (map fst (ddel eqb k d)) -> In x (map fst d).
Proof. induction d as [|[a b] d IH]; cbn; auto. destruct (eqb k a); cbn; tauto. Qed.
End Holds.

Lemma jo_set_vals (o o' : jsobj val) p v r x : (exists m, rep o m) -> pok p -> jo_set o p v = (r, o') -> In x (jo_vals o') ->
  In x (jo_vals o) \/ Some x = v \/ (exists s, p = PStr s /\ x = VStr s).
Proof.
  intros [m R] PK E I. destruct (rep_set o m p v R PK) as [r1 [o1 [E1 [R1 _]]]]. rewrite E in E1. injection E1 as <- <-.
  unfold jo_vals in I |- *. rewrite !in_app_iff in I |- *.
  destruct p as [s|k].
  - cbn [jo_set] in E. injection E as <- <-. cbn [jo_arr jo_props] in I. destruct I as [I|[I|I]]; [auto| |].
    + apply in_map_iff in I as [[a b] [<- I]]. apply (in_map fst) in I. cbn [fst] in *.
      assert (a = s \/ In a (map fst (jo_props o))) as [->|J].
      { destruct v; [eapply dset_fst; eauto|right; eapply ddel_fst; eauto]. }
      * right. right. eauto.
      * left. right. left. apply in_map_iff in J as [[c d] [<- J]]. apply in_map_iff. exists (c, d). auto.
    + destruct v as [v|].
      * apply dset_snd in I as [->|I]; auto.
      * apply ddel_snd in I. auto.
  - pose proof R as [A [N [P G]]]. pose proof R1 as [A1 [N1 [P1 G1]]]. destruct I as [I|I].
    + apply (arr_vals_elem _ _ A1) in I as [z I]. rewrite <- G1, assign_get in I by exact N.
      destruct (pkey_eqb (PInt z) (PInt k)); [auto|]. rewrite G in I. left. left. apply (arr_vals_elem _ _ A). eauto.
    + left. right. assert (jo_props o' = jo_props o) as Q; [|rewrite Q in I; exact I].
      cbn [jo_set] in E. destruct (ensure_array_capacity (jo_arr o) k) as [[?|?] a1]; [destruct (arr_set a1 k v) as [r2 a2]|]; injection E as <- <-; reflexivity.
Qed.

Section Pool.
Variable cfg : dcfg.
(** The name a number or string key gets. *)
Definition name_of (kk : option key) : list val :=
  match kk with
  | Some kk => match normalise_property_key (c_float_repr cfg) kk with Ok (PStr s) => [VStr s] | _ => [] end
  | None => []
  end.
Definition key_val (w : wval) : val :=
  match w with
  | WInt32 z => VInt z | WUint32 n => VInt (Z.of_N n)
  | WDouble b | WNumObj b => VFloat b
  | WStr _ s => VStr s
  | _ => VNone
  end.
Definition field_pool (f : option (stag * list N)) : list val := match f with Some (_, s) => [VStr s] | None => [] end.
(** The strings and ints made for a value of the format. *)
Fixpoint pool (w : wval) : list val :=
  match w with
  | WInt32 z => [VInt z]
  | WUint32 n => [VInt (Z.of_N n)]
  | WBigInt z | WBigObj z => [VInt z]
  | WStr _ s => [VStr s]
  | WRegExp _ s _ => [VStr s; VStr [40;63;58;41]%N]
  | WMap ps | WObject ps | WSparse _ ps => pool_pairs ps
  | WSet vs => pool_vals vs
  | WDense vs ps => pool_vals vs ++ pool_pairs ps
  | WError _ m s => VStr [] :: field_pool m ++ field_pool s
  | WErrorC _ m s c l => VStr [] :: field_pool m ++ field_pool s ++ pool c ++ field_pool l
  | _ => []
  end
with pool_vals (vs : wvals) : list val := match vs with VNil => [] | VCons w r => pool w ++ pool_vals r end
with pool_pairs (ps : wpairs) : list val :=
  match ps with PNil => [] | PCons k v r => name_of (val_key (key_val k)) ++ pool k ++ pool v ++ pool_pairs r end.
Lemma pool_dense vs ps : pool (WDense vs ps) = pool_vals vs ++ pool_pairs ps. Proof. reflexivity. Qed.
Lemma pool_errorc a m s c l : pool (WErrorC a m s c l) = VStr [] :: field_pool m ++ field_pool s ++ pool c ++ field_pool l. Proof. reflexivity. Qed.
Lemma pool_vals_cons w r : pool_vals (VCons w r) = pool w ++ pool_vals r. Proof. reflexivity. Qed.
Lemma pool_pairs_cons k v r : pool_pairs (PCons k v r) = name_of (val_key (key_val k)) ++ pool k ++ pool v ++ pool_pairs r. Proof. reflexivity. Qed.

(** * Everything held is in the pool *)
Hypothesis K : forall t, sized (c_const cfg t) = false.
Variable P : val -> Prop.
Definition fine (v : val) : Prop := sized v = true -> P v.
Definition fine_obj (o : obj) : Prop := forall v, In v (obj_vals o) -> fine v.
Definition fine_st (st : dstate) : Prop := Forall fine_obj (ds_heap st) /\ Forall fine (ds_log st).
Lemma fine_ref i : fine (VRef i). Proof. discriminate. Qed.
Lemma fine_record v st : fine_st st -> fine v -> fine_st (record v st).
Proof. intros [A B] F. split; [exact A|]. apply Forall_app. auto. Qed.
Lemma fine_alloc o st : fine_st st -> fine_obj o -> fine_st {| ds_heap := ds_heap st ++ [o]; ds_log := ds_log st |}.
Proof. intros [A B] F. split; [|exact B]. apply Forall_app. auto. Qed.
Lemma fine_new o i st : fine_st st -> fine_obj o -> fine_st (record (VRef i) {| ds_heap := ds_heap st ++ [o]; ds_log := ds_log st |}).
Proof. intros A F. apply fine_record; [|apply fine_ref]. apply fine_alloc; auto. Qed.
Lemma fine_store i o st : fine_st st -> fine_obj o -> fine_st (store i o st).
Proof.
  intros [A B] F. split; [|exact B]. cbn [store ds_heap]. clear B. revert i. induction A as [|x h X A IH]; intros [|i]; cbn [heap_set]; constructor; auto.
Qed.
Lemma fine_str e s st : fine_st st -> P (VStr s) -> fine_st (build_str e s st).
Proof. intros A F. unfold build_str. destruct (stag_eqb e kStringObject); auto. apply fine_record; auto. intros _. exact F. Qed.
Lemma fine_field f st s st' : build_field f st = (s, st') -> fine_st st -> Forall P (field_pool f) ->
  fine_st st' /\ forall v, In v (opt_str s) -> fine v.
Proof.
  destruct f as [[e x]|]; cbn; intros E A F; injection E as <- <-.
  - inversion F; subst. split; [apply fine_str; auto|]. intros v [<-|[]]. intros _. auto.
  - split; [exact A|]. intros v [].
Qed.
Lemma fine_view b v st x st' : build_view b v st = Ok (x, st') -> fine_st st -> fine_st st' /\ fine x.
Proof.
  destruct v as [v|]; cbn [build_view]; intros E A.
  - apply bind_Ok in E as [y [_ E]]. cbn [alloc_rec alloc] in E. injection E as <- <-. split; [|apply fine_ref]. apply fine_new; auto. intros z [].
  - injection E as <- <-. split; [exact A|apply fine_ref].
Qed.
Definition ready (a : obj) : Prop :=
  fine_obj a /\ match a with OMap _ => True | OObject o | OArray o => exists m, rep o m | _ => False end.
Lemma fine_set : fine_obj (OSet []). Proof. intros y []. Qed.
Lemma ready_map : ready (OMap []). Proof. split; [intros y []|exact I]. Qed.
Lemma ready_object : ready (OObject jo_empty). Proof. split; [intros y []|exists []; apply rep_empty]. Qed.
Lemma ready_array : ready (OArray jo_empty). Proof. split; [intros y []|exists []; apply rep_empty]. Qed.
Lemma put_fine a k v a' : ready a -> fine v -> match a with OMap _ => fine k | _ => Forall P (name_of (val_key k)) end ->
  put cfg a k v = Ok a' -> ready a' /\ (match a, a' with OMap _, OMap _ | OObject _, OObject _ | OArray _, OArray _ => True | _, _ => False end).
Proof.
  intros [F R] V X E. destruct a; try contradiction; cbn [put] in E; apply bind_Ok in E as [x [E1 E]]; injection E as <-; (split; [|exact I]).
  - split; [|exact I]. unfold jm_set in E1. apply bind_Ok in E1 as [s [_ E1]]. injection E1 as <-.
    intros y Y. cbn [obj_vals] in Y. apply in_app_iff in Y as [Y|Y].
    + rewrite <- (map_map snd fst) in Y. apply in_map_iff in Y as [q [<- Y]]. apply dset_snd in Y as [->|Y]; [exact X|].
      apply F. cbn [obj_vals]. apply in_app_iff. left. rewrite <- (map_map snd fst). apply in_map. exact Y.
    + rewrite <- (map_map snd snd) in Y. apply in_map_iff in Y as [q [<- Y]]. apply dset_snd in Y as [->|Y]; [exact V|].
      apply F. cbn [obj_vals]. apply in_app_iff. right. rewrite <- (map_map snd snd). apply in_map. exact Y.
  - unfold jo_put in E1. unfold name_of in X. destruct (val_key k) as [kk|]; [|discriminate].
    apply bind_Ok in E1 as [p [N E1]]. rewrite N in X. destruct (jo_set o p (elem_of v)) as [[[]|e] o1] eqn:S1; [|discriminate]. injection E1 as <-.
    pose proof (norm_pok _ _ _ N) as PK. pose proof R as [m RM]. destruct (rep_set o m p (elem_of v) RM PK) as [r [o2 [E2 [R2 _]]]].
    rewrite S1 in E2. injection E2 as <- <-. split; [|eauto].
    intros y Y. cbn [obj_vals] in Y. destruct (jo_set_vals _ _ _ _ _ _ R PK S1 Y) as [Z|[Z|[s [-> ->]]]].
    + apply F. exact Z.
    + unfold elem_of in Z. destruct v; try discriminate Z; injection Z as ->; exact V.
    + inversion X; subst. intros _. auto.
  - unfold jo_put in E1. unfold name_of in X. destruct (val_key k) as [kk|]; [|discriminate].
    apply bind_Ok in E1 as [p [N E1]]. rewrite N in X. destruct (jo_set o p (elem_of v)) as [[[]|e] o1] eqn:S1; [|discriminate]. injection E1 as <-.
    pose proof (norm_pok _ _ _ N) as PK. pose proof R as [m RM]. destruct (rep_set o m p (elem_of v) RM PK) as [r [o2 [E2 [R2 _]]]].
    rewrite S1 in E2. injection E2 as <- <-. split; [|eauto].
    intros y Y. cbn [obj_vals] in Y. destruct (jo_set_vals _ _ _ _ _ _ R PK S1 Y) as [Z|[Z|[s [-> ->]]]].
    + apply F. exact Z.
    + unfold elem_of in Z. destruct v; try discriminate Z; injection Z as ->; exact V.
    + inversion X; subst. intros _. auto.
Qed.
Lemma put_index_fine a i v a' : ready a -> fine v -> (0 <= i < 2 ^ 32 - 1)%Z -> match a with OArray _ => True | _ => False end ->
  put cfg a (VInt i) v = Ok a' -> ready a' /\ match a' with OArray _ => True | _ => False end.
Proof.
  intros R V B A E. destruct (put_fine a (VInt i) v a' R V) as [R1 S1]; auto.
  - destruct a; try contradiction. cbn [val_key name_of normalise_property_key]. unfold normalise_int, MAX_ARRAY_LENGTH.
    replace ((0 <=? i) && (i <? 2 ^ 32 - 1))%Z with true by lia. constructor.
  - split; [exact R1|]. destruct a, a'; try contradiction; exact I.
Qed.
Lemma forall_app_l (a b : list val) : Forall P (a ++ b) -> Forall P a. Proof. intros H. apply Forall_app in H. tauto. Qed.
Lemma forall_app_r (a b : list val) : Forall P (a ++ b) -> Forall P b. Proof. intros H. apply Forall_app in H. tauto. Qed.
Lemma build_key k st v st' : is_key k -> build cfg k st = Ok (v, st') -> v = key_val k.
Proof. destruct k; cbn [is_key build key_val]; try contradiction; intros _ E; injection E as <- _; reflexivity. Qed.

Theorem build_pool version :
  (forall w bs, wire version w bs -> forall st v st', lenN bs < 2 ^ 32 - 1 -> Forall P (pool w) -> fine_st st ->
     build cfg w st = Ok (v, st') -> fine_st st' /\ fine v)%N /\
  (forall w bs, wbody version w bs -> forall st v st', lenN bs < 2 ^ 32 - 1 -> Forall P (pool w) -> fine_st st ->
     build cfg w st = Ok (v, st') -> fine_st st' /\ fine v)%N /\
  (forall vs bs, wseq version vs bs -> (lenN bs < 2 ^ 32 - 1)%N -> Forall P (pool_vals vs) -> forall st, fine_st st ->
     (forall m acc' st', fine_obj (OSet m) -> build_members cfg vs (OSet m) st = Ok (acc', st') -> fine_st st' /\ fine_obj acc') /\
     (forall i acc acc' st', (i + lenN bs < 2 ^ 32 - 1)%N -> ready acc -> (match acc with OArray _ => True | _ => False end) ->
        build_elems cfg vs i acc st = Ok (acc', st') -> fine_st st' /\ ready acc' /\ (match acc' with OArray _ => True | _ => False end))) /\
  (forall ps bs, wprs version ps bs -> (lenN bs < 2 ^ 32 - 1)%N -> Forall P (pool_pairs ps) -> forall acc st acc' st', fine_st st -> ready acc ->
     (match acc with OMap _ => True | _ => keys_ok ps end) ->
     build_pairs cfg ps acc st = Ok (acc', st') -> fine_st st' /\ ready acc').
Proof.
  cut ((forall w bs (_ : wire version w bs), forall st v st', lenN bs < 2 ^ 32 - 1 -> Forall P (pool w) -> fine_st st ->
     build cfg w st = Ok (v, st') -> fine_st st' /\ fine v)%N /\
  (forall w bs (_ : wbody version w bs), forall st v st', lenN bs < 2 ^ 32 - 1 -> Forall P (pool w) -> fine_st st ->
     build cfg w st = Ok (v, st') -> fine_st st' /\ fine v)%N /\
  (forall vs bs (_ : wseq version vs bs), (lenN bs < 2 ^ 32 - 1)%N -> Forall P (pool_vals vs) -> forall st, fine_st st ->
     (forall m acc' st', fine_obj (OSet m) -> build_members cfg vs (OSet m) st = Ok (acc', st') -> fine_st st' /\ fine_obj acc') /\
     (forall i acc acc' st', (i + lenN bs < 2 ^ 32 - 1)%N -> ready acc -> (match acc with OArray _ => True | _ => False end) ->
        build_elems cfg vs i acc st = Ok (acc', st') -> fine_st st' /\ ready acc' /\ (match acc' with OArray _ => True | _ => False end))) /\
  (forall ps bs (_ : wprs version ps bs), (lenN bs < 2 ^ 32 - 1)%N -> Forall P (pool_pairs ps) -> forall acc st acc' st', fine_st st -> ready acc ->
     (match acc with OMap _ => True | _ => keys_ok ps end) ->
     build_pairs cfg ps acc st = Ok (acc', st') -> fine_st st' /\ ready acc')); [tauto|].
  apply wire_mutind.
  - intros w tb bs T B IH st v st' L. rewrite lenN_app in L. apply IH. lia.
  - intros t I st v st' L F A E. cbn in E. injection E as <- <-. split; [exact A|]. intros X. rewrite K in X. discriminate.
  - intros z bs _ V st v st' L F A E. cbn in E. injection E as <- <-. split; [exact A|]. inversion F; subst. intros _. auto.
  - intros z bs V st v st' L F A E. cbn in E. injection E as <- <-. split; [exact A|]. inversion F; subst. intros _. auto.
  - intros b bs V st v st' L F A E. cbn in E. injection E as <- <-. split; [exact A|discriminate].
  - intros z bs V st v st' L F A E. cbn in E. injection E as <- <-. split; [exact A|]. inversion F; subst. intros _. auto.
  - intros e s bs V st v st' L F A E. cbn in E. injection E as <- <-. inversion F; subst. split; [apply fine_str; auto|]. intros _. auto.
  - intros b st v st' L F A E. cbn in E. injection E as <- <-. split; [apply fine_record; [auto|discriminate]|discriminate].
  - intros b bs V st v st' L F A E. cbn in E. injection E as <- <-. split; [apply fine_record; [auto|discriminate]|discriminate].
  - intros z bs V st v st' L F A E. cbn in E. injection E as <- <-. inversion F; subst. split; [apply fine_record; auto|]; intros _; auto.
  - intros b bs V st v st' L F A E. cbn [build] in E. destruct (c_date cfg b); [|discriminate]. cbn [alloc_rec alloc] in E. injection E as <- <-.
    split; [apply fine_new; auto; intros y []|apply fine_ref].
  - intros e s fl tb sb fb _ _ _ st v st' L F A E. cbn [build] in E. apply bind_Ok in E as [o [RE E]]. cbn [alloc_rec alloc] in E. injection E as <- <-.
    inversion F as [|? ? F1 F2]; subst. inversion F2 as [|? ? F3 _]; subst.
    split; [|apply fine_ref]. apply fine_new; [apply fine_str; auto|].
    unfold regexp_new in RE. destruct (_ && _)%bool; [discriminate|]. injection RE as <-. intros y [<-|[]] _. destruct s; auto.
  - intros ps bs eb cb W IH _ _ st v st' L F A E. rewrite !lenN_app in L. rewrite build_map in E. cbn [alloc_rec alloc] in E.
    apply bind_Ok in E as [[o st1] [B E]]. injection E as <- <-.
    destruct (IH ltac:(lia) F _ _ _ _ (fine_new (OMap []) _ _ A ltac:(intros y [])) ready_map I B) as [S1 [R1 _]].
    split; [apply fine_store; auto|apply fine_ref].
  - intros vs bs eb cb W IH _ _ st v st' L F A E. rewrite !lenN_app in L. rewrite build_set in E. cbn [alloc_rec alloc] in E.
    apply bind_Ok in E as [[o st1] [B E]]. injection E as <- <-.
    destruct (proj1 (IH ltac:(lia) F _ (fine_new (OSet []) _ _ A ltac:(intros y []))) _ _ _ fine_set B) as [S1 R1].
    split; [apply fine_store; auto|apply fine_ref].
  - intros ps bs eb cb W IH KO _ _ st v st' L F A E. rewrite !lenN_app in L. rewrite build_object in E. cbn [alloc_rec alloc] in E.
    apply bind_Ok in E as [[o st1] [B E]]. injection E as <- <-.
    destruct (IH ltac:(lia) F _ _ _ _ (fine_new (OObject jo_empty) _ _ A ltac:(intros y [])) ready_object KO B) as [S1 [R1 _]].
    split; [apply fine_store; auto|apply fine_ref].
  - intros vs ps nb vb pb eb cb lb NB W IH W2 IH2 KO _ _ _ st v st' L F A E. rewrite !lenN_app in L. rewrite build_dense in E. cbn [alloc_rec alloc] in E.
    apply bind_Ok in E as [[o st1] [B E]]. apply bind_Ok in E as [[o2 st2] [B2 E]]. injection E as <- <-. rewrite pool_dense in F.
    apply Forall_app in F as [F1 F2].
    destruct (proj2 (IH ltac:(lia) F1 _ (fine_new (OArray jo_empty) _ _ A ltac:(intros y []))) 0%N (OArray jo_empty) _ _ ltac:(lia)
      ready_array I B) as [S1 [R1 AR]].
    assert (match o with OMap _ => True | _ => keys_ok ps end) as KK by (destruct o; try contradiction; exact KO).
    destruct (IH2 ltac:(lia) F2 _ _ _ _ S1 R1 KK B2) as [S2 [R2 _]].
    split; [apply fine_store; auto|apply fine_ref].
  - intros len ps nb pb eb cb lb NB W IH KO _ _ _ st v st' L F A E. rewrite !lenN_app in L. rewrite build_sparse in E. cbn [alloc_rec alloc] in E.
    apply bind_Ok in E as [o [B E]]. apply bind_Ok in E as [[o2 st2] [B2 E]]. injection E as <- <-.
    assert (ready o /\ match o with OArray _ => True | _ => False end) as [R1 AR].
    { destruct (0 <? len)%N eqn:L0; [|injection B as <-; split; [|exact I]; split; [intros y []|exists []; apply rep_empty]].
      destruct (Z.ltb_spec (Z.of_N len - 1) (2 ^ 32 - 1)) as [LT|GE].
      - eapply put_index_fine; [| | | |exact B]; [split; [intros y []|exists []; apply rep_empty]|discriminate|lia|exact I].
      - cbn [put] in B. apply bind_Ok in B as [x [B B3]]. injection B3 as <-. split; [|exact I].
        unfold jo_put in B. cbn [val_key elem_of] in B. apply bind_Ok in B as [p [N1 B]].
        destruct (jo_set jo_empty p None) as [[[]|e] o1] eqn:S1; [|discriminate]. injection B as <-.
        destruct p as [s|k].
        + cbn in S1. injection S1 as <-. split; [intros y []|exists []; apply rep_empty].
        + exfalso. apply normalise_index in N1 as [[_ X] D]. cbn [denotes] in D. lia. }
    assert (match o with OMap _ => True | _ => keys_ok ps end) as KK by (destruct o; try contradiction; exact KO).
    destruct (IH ltac:(lia) F _ _ _ _ (fine_new (OArray jo_empty) _ _ A ltac:(intros y [])) R1 KK B2) as [S2 [R2 _]].
    split; [apply fine_store; auto|apply fine_ref].
  - intros name msg stack nb mb sb eb _ _ _ _ st v st' L F A E. cbn [build] in E. destruct (build_field msg st) as [m st1] eqn:B1.
    destruct (build_field stack st1) as [s st2] eqn:B2. cbn [alloc_rec alloc] in E. injection E as <- <-.
    cbn [pool] in F. inversion F as [|? ? F0 F1]; subst. apply Forall_app in F1 as [F1 F2].
    destruct (fine_field _ _ _ _ B1 A F1) as [A1 M]. destruct (fine_field _ _ _ _ B2 A1 F2) as [A2 S1].
    split; [|apply fine_ref]. apply fine_new; [exact A2|]. intros y Y. cbn [obj_vals] in Y. rewrite !in_app_iff in Y.
    destruct Y as [Y|[Y|[<-|[]]]]; [|auto|discriminate]. destruct m; cbn in Y; destruct Y as [<-|[]]; [apply M; left; reflexivity|intros _; exact F0].
  - intros name msg stack cause late nb mb sb tb cb lb eb _ _ _ _ W IH _ _ _ st v st' L F A E. rewrite !lenN_app in L.
    rewrite build_errorc in E. destruct (build_field msg st) as [m st1] eqn:B1.
    destruct (build_field stack st1) as [s st2] eqn:B2. cbn [alloc_rec alloc] in E.
    apply bind_Ok in E as [[c st3] [B3 E]]. destruct (build_field late st3) as [l st4] eqn:B4. injection E as <- <-.
    rewrite pool_errorc in F. inversion F as [|? ? F0 F1]; subst. apply Forall_app in F1 as [F1 F2]. apply Forall_app in F2 as [F2 F3]. apply Forall_app in F3 as [F3 F4].
    destruct (fine_field _ _ _ _ B1 A F1) as [A1 M]. destruct (fine_field _ _ _ _ B2 A1 F2) as [A2 S1].
    assert (forall cc s', fine cc -> (forall y, In y (opt_str s') -> fine y) -> fine_obj (OError (proto_name name) (message_of m) s' cc)) as FE.
    { intros cc s' FC FS y Y. cbn [obj_vals] in Y. rewrite !in_app_iff in Y.
      destruct Y as [Y|[Y|[<-|[]]]]; auto. destruct m; cbn in Y; destruct Y as [<-|[]]; [apply M; left; reflexivity|intros _; exact F0]. }
    destruct (IH _ _ _ ltac:(lia) F3 (fine_new _ _ _ A2 (FE VNone s ltac:(discriminate) S1)) B3) as [A3 FC].
    destruct (fine_field _ _ _ _ B4 A3 F4) as [A4 L4].
    split; [|apply fine_ref]. apply fine_store; [exact A4|]. apply FE; [exact FC|]. destruct s; cbn [first_some]; auto.
  - intros b v bb vb _ _ st x st' L F A E. cbn [build] in E.
    destruct b; cbn [build_buf alloc_rec alloc] in E; apply fine_view in E; auto; try (apply fine_new; auto; intros y []); apply fine_alloc; auto; intros y [].
  - intros id v ib vb _ _ st x st' L F A E. cbn [build] in E. destruct (id <? lenN (ds_log st))%N; [|discriminate E].
    destruct (nth_error (ds_log st) (N.to_nat id)) as [y|] eqn:NE; [|discriminate E].
    assert (fine y) as FY. { destruct A as [_ A]. eapply Forall_forall in A; [exact A|]. eapply nth_error_In; eauto. }
    destruct v as [v|].
    + destruct y; try discriminate E. destruct (nth_error (ds_heap st) oid) as [y|]; [|discriminate E].
      destruct (is_buffer y); [|discriminate E]. apply fine_view in E; auto.
    + destruct y; injection E as <- <-; auto.
  - intros id bs _ st v st' L F A E. cbn [build alloc_rec alloc] in E. injection E as <- <-. split; [apply fine_new; auto; intros y []|apply fine_ref].
  - intros code d cb lb _ _ _ st v st' L F A E. cbn [build] in E. destruct (c_host cfg); [|discriminate E].
    destruct (node_format code); [|discriminate E]. cbn [alloc] in E. injection E as <- <-. split; [|apply fine_ref].
    apply (fine_alloc _ {| ds_heap := ds_heap st ++ [_]; ds_log := ds_log st |}); [apply fine_alloc; auto; intros y []|intros y []].
  - intros L F st A. split.
    + intros m acc' st' FO E. cbn in E. injection E as <- <-. auto.
    + intros i acc acc' st' _ R AR E. cbn in E. injection E as <- <-. auto.
  - intros w r a b W IH W2 IH2 L F st A. rewrite lenN_app in L. rewrite pool_vals_cons in F. apply Forall_app in F as [F1 F2]. split.
    + intros m acc' st' FO E. rewrite build_members_cons in E. apply bind_Ok in E as [[x st1] [B1 E]]. apply bind_Ok in E as [acc1 [PU E]].
      destruct (IH _ _ _ ltac:(lia) F1 A B1) as [A1 FX]. cbn [put_member] in PU. apply bind_Ok in PU as [m1 [P1 PU]]. injection PU as <-.
      eapply (proj1 (IH2 ltac:(lia) F2 _ A1)); [|exact E].
      unfold js_add in P1. apply bind_Ok in P1 as [s [_ P1]]. injection P1 as <-. intros y Y. cbn [obj_vals] in Y.
      apply dset_snd in Y as [->|Y]; [exact FX|]. apply FO. exact Y.
    + intros i acc acc' st' LI R AR E. rewrite lenN_app in LI. rewrite build_elems_cons in E. apply bind_Ok in E as [[x st1] [B1 E]]. apply bind_Ok in E as [acc1 [PU E]].
      destruct (IH _ _ _ ltac:(lia) F1 A B1) as [A1 FX].
      apply (proj1 (wire_objs version)) in W as [_ W]. unfold lenN in *.
      destruct (put_index_fine acc (Z.of_N i) x acc1 R FX ltac:(lia) AR PU) as [R1 AR1].
      eapply (proj2 (IH2 ltac:(lia) F2 _ A1)); [|exact R1|exact AR1|exact E]. lia.
  - intros L F acc st acc' st' A R KO E. cbn in E. injection E as <- <-. auto.
  - intros k v r a b c WK IHK WV IHV WR IHR L F acc st acc' st' A R KO E. rewrite !lenN_app in L.
    rewrite pool_pairs_cons in F. apply Forall_app in F as [F0 F]. apply Forall_app in F as [F1 F]. apply Forall_app in F as [F2 F3].
    rewrite build_pairs_cons in E. apply bind_Ok in E as [[x st1] [B1 E]]. apply bind_Ok in E as [[y st2] [B2 E]]. apply bind_Ok in E as [acc1 [PU E]].
    destruct (IHK _ _ _ ltac:(lia) F1 A B1) as [A1 FX]. destruct (IHV _ _ _ ltac:(lia) F2 A1 B2) as [A2 FY].
    destruct (put_fine acc x y acc1 R FY) as [R1 S1]; [|exact PU|].
    + destruct R as [_ R]. destruct acc; try contradiction; [exact FX| |]; destruct KO as [KO _];
        rewrite (build_key _ _ _ _ KO B1); exact F0.
    + eapply (IHR ltac:(lia) F3); [exact A2|exact R1| |exact E].
      destruct R as [_ R]. destruct acc, acc1; try contradiction; try exact I; destruct KO; auto.
Qed.
End Pool.

(** * The size of the pool *)
Lemma size_bound n k : (n < 2 ^ k)%N -> (N.size n <= k)%N.
Proof.
  intros H. destruct (N.eq_dec n 0) as [->|N0]; [cbn; lia|].
  pose proof (N.size_le n) as S1. assert (2 ^ N.size n < 2 ^ (k + 1))%N as S2.
  { eapply N.le_lt_trans; [exact S1|]. rewrite N.pow_add_r. change (2 ^ 1)%N with 2%N. rewrite N.succ_double_spec. lia. }
  apply N.pow_lt_mono_r_iff in S2; lia.
Qed.
Lemma int_text z k : (Z.abs_N z < 2 ^ (8 * k))%N -> text_size (VInt z) <= N.to_nat k + 1.
Proof.
  intros H. cbn [text_size]. apply size_bound in H.
  assert (N.size (Z.abs_N z) / 8 <= k)%N by (apply N.div_le_upper_bound; lia). lia.
Qed.
Lemma enc_seq_length (R : N -> bytes -> Prop) s bs : (forall c b, R c b -> 1 <= length b) -> enc_seq R s bs -> length s <= length bs.
Proof. intros H. induction 1 as [|c s b bs X _ IH]; cbn; [lia|]. rewrite app_length. apply H in X. lia. Qed.
Lemma wstring_text e s bs : wstring e s bs -> S (length s) <= length bs.
Proof.
  intros [s0 lb b [-> _] V|s0 lb b U V|s0 lb b U V|s0 lb b U V]; apply varint_length in V; rewrite app_length; [lia| | |];
    apply enc_seq_length in U; try lia; intros c b0; destruct 1; cbn; lia.
Qed.
Lemma field_text e f bs : wfield e f bs -> total_text (field_pool f) <= length bs.
Proof.
  destruct 1 as [|enc s eb tb bs E T W]; cbn; [lia|]. apply wstring_text in W. rewrite !app_length. lia.
Qed.
Lemma total_app a b : total_text (a ++ b) = total_text a + total_text b.
Proof. unfold total_text. induction a; cbn [app fold_right] in *; lia. Qed.
Lemma total_cons a b : total_text (a :: b) = text_size a + total_text b.
Proof. reflexivity. Qed.
Lemma numeral_text s z k : znumeral s z -> (0 < k)%nat -> (Z.abs_N z < 10 ^ N.of_nat k)%N -> length s <= S k.
Proof.
  intros H K B. assert (s = dec_Z z) as -> by (eapply znumeral_unique; [exact H|apply dec_Z_numeral]).
  unfold dec_Z. destruct (z <? 0)%Z eqn:E; cbn [length].
  - pose proof (proj2 (numeral_length_le _ _ k (dec_N_numeral (Z.to_N (- z))) K)) as L.
    apply le_n_S, L. replace (Z.to_N (- z)) with (Z.abs_N z) by lia. exact B.
  - pose proof (proj2 (numeral_length_le _ _ k (dec_N_numeral (Z.to_N z)) K)) as L.
    apply le_S, L. replace (Z.to_N z) with (Z.abs_N z) by lia. exact B.
Qed.
Lemma pow_double : (2 ^ 1024 < 10 ^ 309)%N.
Proof. vm_compute. reflexivity. Qed.
Lemma wbigint_text z bs : wbigint z bs -> text_size (VInt z) <= length bs.
Proof.
  destruct 1 as [f vb digits z V B _ Z]. rewrite app_length. apply varint_length in V.
  assert (Z.abs_N z < 2 ^ (8 * lenN digits))%N as L.
  { pose proof (of_le_bound digits B) as O. replace (Z.abs_N z) with (of_le digits) by (destruct (N.odd f); lia).
    rewrite N.pow_mul_r. exact O. }
  apply int_text in L. unfold lenN in L. lia.
Qed.

Section Size.
Variable cfg : dcfg.
Hypothesis FR : forall b, length (c_float_repr cfg b) <= 24.
Definition name_text (w : wval) : nat := total_text (name_of cfg (val_key (key_val w))).
Lemma name_of_int z : (Z.abs_N z < 2 ^ 33)%N -> total_text (name_of cfg (val_key (VInt z))) <= 11.
Proof.
  intros H. cbn [val_key name_of]. destruct (normalise_property_key _ _) as [[s|k]|] eqn:E; [|cbn; lia|cbn; lia].
  apply normalise_string in E. assert (length s <= 11); [|cbn; lia].
  apply (numeral_text s z 10); [exact E|lia|]. eapply N.lt_trans; [exact H|]. reflexivity.
Qed.
Lemma name_of_float b : total_text (name_of cfg (val_key (VFloat b))) <= 310.
Proof.
  cbn [val_key name_of]. destruct (normalise_property_key _ _) as [[s|k]|] eqn:E; [|cbn; lia|cbn; lia].
  assert (length s <= 310); [|cbn; lia]. destruct (float_int b) as [z|] eqn:FI.
  - apply normalise_string in E. pose proof (float_int_bound _ _ FI) as B. apply float_int_spec in FI. apply E in FI.
    apply (numeral_text s z 309); [exact FI|lia|]. change (N.of_nat 309) with 309%N.
    eapply N.lt_trans; [|exact pow_double]. 
    apply N2Z.inj_lt. rewrite N2Z.inj_abs_N, N2Z.inj_pow. exact B.
  - cbn [normalise_property_key] in E. rewrite FI in E. injection E as <-.
    destruct (ieee b) as [|[]|]; cbn [length]; try lia. specialize (FR b). lia.
Qed.
Lemma name_of_str s : total_text (name_of cfg (val_key (VStr s))) <= length s.
Proof.
  cbn [val_key name_of]. destruct (normalise_property_key _ _) as [[t|k]|] eqn:E; [|cbn; lia|cbn; lia].
  apply normalise_string in E. subst t. cbn. lia.
Qed.
Theorem wire_pool version :
  (forall w bs, wire version w bs -> total_text (pool cfg w) + name_text w <= 35 * length bs) /\
  (forall w bs, wbody version w bs -> total_text (pool cfg w) + name_text w <= 35 * S (length bs)) /\
  (forall vs bs, wseq version vs bs -> total_text (pool_vals cfg vs) <= 35 * length bs) /\
  (forall ps bs, wprs version ps bs -> total_text (pool_pairs cfg ps) <= 35 * length bs).
Proof.
  cut ((forall w bs (_ : wire version w bs), total_text (pool cfg w) + name_text w <= 35 * length bs) /\
  (forall w bs (_ : wbody version w bs), total_text (pool cfg w) + name_text w <= 35 * S (length bs)) /\
  (forall vs bs (_ : wseq version vs bs), total_text (pool_vals cfg vs) <= 35 * length bs) /\
  (forall ps bs (_ : wprs version ps bs), total_text (pool_pairs cfg ps) <= 35 * length bs)); [tauto|].
  apply wire_mutind.
  - intros w tb bs T B IH. apply tagged_length in T. rewrite app_length. lia.
  - intros t I. cbn. lia.
  - intros z bs Z V. unfold name_text. cbn [key_val pool]. rewrite total_cons.
    pose proof (int_text z 4) as I1. pose proof (name_of_int z) as I2. change (2 ^ (8 * 4))%N with 4294967296%N in I1. change (2 ^ 33)%N with 8589934592%N in I2.
    specialize (I1 ltac:(lia)). specialize (I2 ltac:(lia)). change (total_text []) with 0. apply varint32_length in V. lia.
  - intros n bs V. pose proof V as [_ [_ B]]. unfold name_text. cbn [key_val pool]. rewrite total_cons.
    pose proof (int_text (Z.of_N n) 4) as I1. pose proof (name_of_int (Z.of_N n)) as I2. change (2 ^ (8 * 4))%N with 4294967296%N in I1. change (2 ^ 33)%N with 8589934592%N in I2.
    change (2 ^ 32)%N with 4294967296%N in B.
    specialize (I1 ltac:(lia)). specialize (I2 ltac:(lia)). change (total_text []) with 0. apply varint32_length in V. lia.
  - intros b bs V. apply wdouble_length in V. unfold name_text. cbn [key_val pool]. pose proof (name_of_float b). change (total_text []) with 0. lia.
  - intros z bs V. apply wbigint_text in V. unfold name_text. cbn [key_val pool val_key name_of]. rewrite total_cons. change (total_text []) with 0. lia.
  - intros e s bs V. apply wstring_text in V. unfold name_text. cbn [key_val pool]. pose proof (name_of_str s). rewrite total_cons. cbn [text_size]. change (total_text []) with 0. lia.
  - intros b. cbn. lia.
  - intros b bs V. apply wdouble_length in V. unfold name_text. cbn [key_val pool]. pose proof (name_of_float b). change (total_text []) with 0. lia.
  - intros z bs V. apply wbigint_text in V. unfold name_text. cbn [key_val pool val_key name_of]. rewrite total_cons. change (total_text []) with 0. lia.
  - intros b bs _. cbn. lia.
  - intros e s fl tb sb fb _ W _. apply wstring_text in W. rewrite !app_length. unfold name_text. cbn [key_val pool val_key name_of].
    rewrite !total_cons. cbn [text_size length]. change (total_text []) with 0. lia.
  - intros ps bs eb cb _ IH _ _. rewrite !app_length. unfold name_text. cbn [key_val val_key name_of]. change (pool cfg (WMap ps)) with (pool_pairs cfg ps). change (total_text []) with 0. lia.
  - intros vs bs eb cb _ IH _ _. rewrite !app_length. unfold name_text. cbn [key_val val_key name_of]. change (pool cfg (WSet vs)) with (pool_vals cfg vs). change (total_text []) with 0. lia.
  - intros ps bs eb cb _ IH _ _ _. rewrite !app_length. unfold name_text. cbn [key_val val_key name_of]. change (pool cfg (WObject ps)) with (pool_pairs cfg ps). change (total_text []) with 0. lia.
  - intros vs ps nb vb pb eb cb lb _ _ IH _ IH2 _ _ _ _. rewrite !app_length. unfold name_text. cbn [key_val val_key name_of].
    rewrite pool_dense, total_app. change (total_text []) with 0. lia.
  - intros len ps nb pb eb cb lb _ _ IH _ _ _ _. rewrite !app_length. unfold name_text. cbn [key_val val_key name_of]. change (pool cfg (WSparse len ps)) with (pool_pairs cfg ps). change (total_text []) with 0. lia.
  - intros name msg stack nb mb sb eb _ M S1 _. apply field_text in M. apply field_text in S1. rewrite !app_length. unfold name_text. cbn [key_val val_key name_of pool].
    rewrite total_cons, total_app. cbn [text_size length]. change (total_text []) with 0. lia.
  - intros name msg stack cause late nb mb sb tb cb lb eb _ M S1 _ _ IH L1 _ _. apply field_text in M. apply field_text in S1. apply field_text in L1.
    rewrite !app_length. unfold name_text in *. cbn [key_val val_key name_of]. rewrite pool_errorc.
    rewrite total_cons, !total_app. cbn [text_size length]. change (total_text []) with 0. lia.
  - intros b v bb vb _ _. cbn. lia.
  - intros id v ib vb _ _. cbn. lia.
  - intros id bs _. cbn. lia.
  - intros code d cb lb _ _ _. cbn. lia.
  - cbn. lia.
  - intros w r a b _ IH _ IH2. rewrite pool_vals_cons, total_app, app_length. lia.
  - cbn. lia.
  - intros k v r a b c _ IH _ IH2 _ IH3. unfold name_text in *. rewrite pool_pairs_cons, !total_app, !app_length. lia.
Qed.
End Size.
