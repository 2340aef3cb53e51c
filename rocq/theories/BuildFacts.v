(** Facts about the meaning of sentences: reference ids and the number of objects. *)
From Coq Require Import List NArith ZArith Bool Lia ZifyBool ZifyNat ZifyN.
From Verif Require Import Base ModelTags ModelPrim SpecPrim PrimFacts ModelValue ModelObject ModelMap ModelBuffer ModelHeap ModelDecode
  SpecWire SpecBuild DecodeSound DecodeComplete.
Import ListNotations.
Open Scope N_scope.

Section Facts.
Variable cfg : dcfg.
Notation L st := (lenN (ds_log st)).

Lemma log_record v st : L (record v st) = L st + 1.
Proof. unfold record. cbn [ds_log]. rewrite lenN_app. reflexivity. Qed.
Lemma log_str enc s st : L (build_str enc s st) = L st + str_ids enc.
Proof. unfold build_str, str_ids. destruct (stag_eqb enc kStringObject); [apply log_record|lia]. Qed.
Lemma log_field f st s st' : build_field f st = (s, st') -> L st' = L st + field_ids f.
Proof.
  destruct f as [[enc x]|]; cbn; intros H; injection H as <- <-; [apply log_str|lia].
Qed.
Lemma log_view b v st x st' : build_view b v st = Ok (x, st') -> L st' = L st + view_ids v.
Proof.
  destruct v as [v|]; cbn [build_view view_ids]; intros H.
  - apply bind_Ok in H as [y [_ H]]. cbn [alloc_rec alloc] in H. injection H as <- <-. rewrite log_record. reflexivity.
  - injection H as <- <-. lia.
Qed.
Definition ids_ok w := forall st v st', build cfg w st = Ok (v, st') -> ids w (L st) = Some (L st').
Definition ids_vals_ok vs := (forall acc st acc' st', build_members cfg vs acc st = Ok (acc', st') -> ids_vals vs (L st) = Some (L st')) /\
  (forall i acc st acc' st', build_elems cfg vs i acc st = Ok (acc', st') -> ids_vals vs (L st) = Some (L st')).
Definition ids_pairs_ok ps := forall acc st acc' st', build_pairs cfg ps acc st = Ok (acc', st') -> ids_pairs ps (L st) = Some (L st').
Lemma ids_dense vs ps n : ids (WDense vs ps) n = match ids_vals vs (n + 1) with Some n => ids_pairs ps n | None => None end.
Proof. reflexivity. Qed.
Lemma ids_errorc a m s c l n : ids (WErrorC a m s c l) n =
  match ids c (n + field_ids m + field_ids s + 1) with Some n => Some (n + field_ids l) | None => None end.
Proof. reflexivity. Qed.
Lemma ids_vals_cons w r n : ids_vals (VCons w r) n = match ids w n with Some n => ids_vals r n | None => None end.
Proof. reflexivity. Qed.
Lemma ids_pairs_cons k v r n : ids_pairs (PCons k v r) n =
  match ids k n with Some n => match ids v n with Some n => ids_pairs r n | None => None end | None => None end.
Proof. reflexivity. Qed.
Theorem build_ids : (forall w, ids_ok w) /\ (forall vs, ids_vals_ok vs) /\ (forall ps, ids_pairs_ok ps).
Proof.
  apply wval_mutind; intros.
  all: try (intros st r st' B; cbn [build ids] in *; injection B as <- <-; rewrite ?log_record, ?log_str; f_equal; lia; fail).
  - intros st r st' B. cbn [build ids] in *. destruct (c_date cfg bits); [|discriminate B].
    cbn [alloc_rec alloc] in B. injection B as <- <-. rewrite log_record. reflexivity.
  - intros st r st' B. cbn [build ids] in *. apply bind_Ok in B as [o [_ B]]. cbn [alloc_rec alloc] in B. injection B as <- <-.
    rewrite log_record. change (ds_log {| ds_heap := _; ds_log := ?x |}) with x. rewrite log_str. reflexivity.
  - intros st r st' B. rewrite build_map in B. cbn [alloc_rec alloc] in B. apply bind_Ok in B as [[o st1] [B1 B]]. injection B as <- <-.
    apply H in B1. rewrite log_record in B1. exact B1.
  - intros st r st' B. rewrite build_set in B. cbn [alloc_rec alloc] in B. apply bind_Ok in B as [[o st1] [B1 B]]. injection B as <- <-.
    apply H in B1. rewrite log_record in B1. exact B1.
  - intros st r st' B. rewrite build_object in B. cbn [alloc_rec alloc] in B. apply bind_Ok in B as [[o st1] [B1 B]]. injection B as <- <-.
    apply H in B1. rewrite log_record in B1. exact B1.
  - intros st r st' B. rewrite build_dense in B. cbn [alloc_rec alloc] in B. apply bind_Ok in B as [[o st1] [B1 B]].
    apply bind_Ok in B as [[o2 st2] [B2 B]]. injection B as <- <-.
    apply (proj2 H) in B1. rewrite log_record in B1. apply H0 in B2. rewrite ids_dense.
    change (ds_log {| ds_heap := _; ds_log := ?x |}) with x in B1. rewrite B1. exact B2.
  - intros st r st' B. rewrite build_sparse in B. cbn [alloc_rec alloc] in B. apply bind_Ok in B as [o [_ B]].
    apply bind_Ok in B as [[o2 st2] [B2 B]]. injection B as <- <-.
    apply H in B2. rewrite log_record in B2. exact B2.
  - intros st r st' B. cbn [build ids] in *. destruct (build_field msg st) as [m st1] eqn:B1.
    destruct (build_field stack st1) as [s st2] eqn:B2. cbn [alloc_rec alloc] in B. injection B as <- <-.
    apply log_field in B1. apply log_field in B2. rewrite log_record. cbn [ds_log]. f_equal. lia.
  - intros st r st' B. rewrite build_errorc in B. destruct (build_field msg st) as [m st1] eqn:B1.
    destruct (build_field stack st1) as [s st2] eqn:B2. cbn [alloc_rec alloc] in B.
    apply bind_Ok in B as [[c st3] [B3 B]]. destruct (build_field late st3) as [l st4] eqn:B4. injection B as <- <-.
    apply log_field in B1. apply log_field in B2. apply log_field in B4. apply H in B3. rewrite log_record in B3.
    change (ds_log {| ds_heap := _; ds_log := ?x |}) with x in B3.
    rewrite ids_errorc. rewrite <- B1, <- B2, B3. cbn [store ds_log]. f_equal. lia.
  - intros st r st' B. cbn [build ids] in *. destruct b; cbn [build_buf alloc_rec alloc] in B; apply log_view in B;
      rewrite ?log_record in B; cbn [ds_log] in B; rewrite B; reflexivity.
  - intros st r st' B. cbn [build ids] in *. destruct (id <? L st); [|discriminate B].
    destruct (nth_error (ds_log st) (N.to_nat id)) as [x|]; [|discriminate B].
    destruct v as [v|].
    + destruct x; try discriminate B. destruct (nth_error (ds_heap st) oid) as [x|]; [|discriminate B].
      destruct (is_buffer x); [|discriminate B]. apply log_view in B. rewrite B. reflexivity.
    + destruct x; injection B as <- <-; cbn [view_ids]; f_equal; lia.
  - intros st r st' B. cbn [build ids] in *. destruct (c_host cfg); [|discriminate B].
    destruct (node_format code); [|discriminate B]. cbn [alloc] in B. injection B as <- <-. reflexivity.
  - split; intros; cbn in *; match goal with X : Ok _ = Ok _ |- _ => injection X as <- <- end; reflexivity.
  - destruct H0 as [H1 H2]. split; intros; rewrite ids_vals_cons.
    + rewrite build_members_cons in H0. apply bind_Ok in H0 as [[x st1] [B1 B]]. apply bind_Ok in B as [acc1 [_ B]].
      rewrite (H _ _ _ B1). eapply H1; eauto.
    + rewrite build_elems_cons in H0. apply bind_Ok in H0 as [[x st1] [B1 B]]. apply bind_Ok in B as [acc1 [_ B]].
      rewrite (H _ _ _ B1). eapply H2; eauto.
  - intros acc st acc' st' B. cbn in B. injection B as <- <-. reflexivity.
  - intros acc st acc' st' B. rewrite build_pairs_cons in B. apply bind_Ok in B as [[x st1] [B1 B]].
    apply bind_Ok in B as [[y st2] [B2 B]]. apply bind_Ok in B as [acc1 [_ B]].
    rewrite ids_pairs_cons, (H _ _ _ B1), (H0 _ _ _ B2). eapply H1; eauto.
Qed.
End Facts.

(** * Objects *)
Definition view_objs (v : option wview) : nat := match v with Some _ => 1 | None => 0 end.
Fixpoint objs (w : wval) : nat :=
  match w with
  | WDate _ | WRegExp _ _ _ | WError _ _ _ | WSharedObj _ => 1
  | WMap ps | WObject ps | WSparse _ ps => S (objs_pairs ps)
  | WSet vs => S (objs_vals vs)
  | WDense vs ps => S (objs_vals vs + objs_pairs ps)
  | WErrorC _ _ _ c _ => S (objs c)
  | WBuf _ v => S (view_objs v)
  | WRef _ v => view_objs v
  | WHost _ _ => 2
  | _ => 0
  end
with objs_vals (vs : wvals) : nat :=
  match vs with VNil => 0 | VCons w r => objs w + objs_vals r end
with objs_pairs (ps : wpairs) : nat :=
  match ps with PNil => 0 | PCons k v r => objs k + objs v + objs_pairs r end.
Lemma objs_dense vs ps : objs (WDense vs ps) = S (objs_vals vs + objs_pairs ps). Proof. reflexivity. Qed.
Lemma objs_vals_cons w r : objs_vals (VCons w r) = (objs w + objs_vals r)%nat. Proof. reflexivity. Qed.
Lemma objs_pairs_cons k v r : objs_pairs (PCons k v r) = (objs k + objs v + objs_pairs r)%nat. Proof. reflexivity. Qed.

Section Objs.
Variable cfg : dcfg.
Notation H st := (length (ds_heap st)).
Lemma H_record v st : H (record v st) = H st. Proof. reflexivity. Qed.
Lemma H_str enc s st : H (build_str enc s st) = H st.
Proof. unfold build_str. destruct (stag_eqb enc kStringObject); reflexivity. Qed.
Lemma H_field f st s st' : build_field f st = (s, st') -> H st' = H st.
Proof. destruct f as [[enc x]|]; cbn; intros E; injection E as <- <-; [apply H_str|reflexivity]. Qed.
Lemma H_alloc o st : H (snd (alloc_rec o st)) = S (H st).
Proof. cbn. rewrite app_length. cbn. lia. Qed.
Lemma heap_set_length h i o : length (heap_set h i o) = length h.
Proof. revert i. induction h; intros [|i]; cbn; auto. Qed.
Lemma H_store i o st : H (store i o st) = H st. Proof. apply heap_set_length. Qed.
Lemma H_view b v st x st' : build_view b v st = Ok (x, st') -> H st' = (H st + view_objs v)%nat.
Proof.
  destruct v as [v|]; cbn [build_view view_objs]; intros E.
  - apply bind_Ok in E as [y [_ E]]. cbn [alloc_rec alloc] in E. injection E as <- <-. cbn. rewrite app_length. reflexivity.
  - injection E as <- <-. lia.
Qed.
Definition objs_ok w := forall st v st', build cfg w st = Ok (v, st') -> H st' = (H st + objs w)%nat.
Definition objs_vals_ok vs := (forall acc st acc' st', build_members cfg vs acc st = Ok (acc', st') -> H st' = (H st + objs_vals vs)%nat) /\
  (forall i acc st acc' st', build_elems cfg vs i acc st = Ok (acc', st') -> H st' = (H st + objs_vals vs)%nat).
Definition objs_pairs_ok ps := forall acc st acc' st', build_pairs cfg ps acc st = Ok (acc', st') -> H st' = (H st + objs_pairs ps)%nat.
Lemma H_new (st : dstate) o v : H (record v {| ds_heap := ds_heap st ++ [o]; ds_log := ds_log st |}) = S (H st).
Proof. cbn. rewrite app_length. cbn. lia. Qed.
Theorem build_objs : (forall w, objs_ok w) /\ (forall vs, objs_vals_ok vs) /\ (forall ps, objs_pairs_ok ps).
Proof.
  apply wval_mutind; intros.
  all: try (intros st r st' B; cbn [build objs] in *; cbn [alloc_rec alloc] in *; injection B as <- <-;
            rewrite ?H_new, ?H_record, ?H_str; lia; fail).
  - intros st r st' B. cbn [build objs] in *. destruct (c_date cfg bits); [|discriminate B].
    cbn [alloc_rec alloc] in B. injection B as <- <-. rewrite H_new. lia.
  - intros st r st' B. cbn [build objs] in *. apply bind_Ok in B as [o [_ B]]. cbn [alloc_rec alloc] in B. injection B as <- <-.
    rewrite H_new, H_str. lia.
  - intros st r st' B. rewrite build_map in B. cbn [alloc_rec alloc] in B. apply bind_Ok in B as [[o st1] [B1 B]]. injection B as <- <-.
    apply H in B1. rewrite H_new in B1. rewrite H_store, B1. cbn. lia.
  - intros st r st' B. rewrite build_set in B. cbn [alloc_rec alloc] in B. apply bind_Ok in B as [[o st1] [B1 B]]. injection B as <- <-.
    apply H in B1. rewrite H_new in B1. rewrite H_store, B1. cbn. lia.
  - intros st r st' B. rewrite build_object in B. cbn [alloc_rec alloc] in B. apply bind_Ok in B as [[o st1] [B1 B]]. injection B as <- <-.
    apply H in B1. rewrite H_new in B1. rewrite H_store, B1. cbn. lia.
  - intros st r st' B. rewrite build_dense in B. cbn [alloc_rec alloc] in B. apply bind_Ok in B as [[o st1] [B1 B]].
    apply bind_Ok in B as [[o2 st2] [B2 B]]. injection B as <- <-.
    apply (proj2 H) in B1. rewrite H_new in B1. apply H0 in B2. rewrite objs_dense, H_store. lia.
  - intros st r st' B. rewrite build_sparse in B. cbn [alloc_rec alloc] in B. apply bind_Ok in B as [o [_ B]].
    apply bind_Ok in B as [[o2 st2] [B2 B]]. injection B as <- <-.
    apply H in B2. rewrite H_new in B2. rewrite H_store, B2. cbn. lia.
  - intros st r st' B. cbn [build objs] in *. destruct (build_field msg st) as [m st1] eqn:B1.
    destruct (build_field stack st1) as [s st2] eqn:B2. cbn [alloc_rec alloc] in B. injection B as <- <-.
    apply H_field in B1. apply H_field in B2. rewrite H_new. lia.
  - intros st r st' B. rewrite build_errorc in B. destruct (build_field msg st) as [m st1] eqn:B1.
    destruct (build_field stack st1) as [s st2] eqn:B2. cbn [alloc_rec alloc] in B.
    apply bind_Ok in B as [[c st3] [B3 B]]. destruct (build_field late st3) as [l st4] eqn:B4. injection B as <- <-.
    apply H_field in B1. apply H_field in B2. apply H_field in B4. apply H in B3. rewrite H_new in B3.
    rewrite H_store. cbn [objs]. lia.
  - intros st r st' B. cbn [build objs] in *. destruct b; cbn [build_buf alloc_rec alloc] in B; apply H_view in B;
      rewrite B; cbn; rewrite app_length; cbn; lia.
  - intros st r st' B. cbn [build objs] in *. destruct (id <? lenN (ds_log st)); [|discriminate B].
    destruct (nth_error (ds_log st) (N.to_nat id)) as [x|]; [|discriminate B].
    destruct v as [v|].
    + destruct x; try discriminate B. destruct (nth_error (ds_heap st) oid) as [x|]; [|discriminate B].
      destruct (is_buffer x); [|discriminate B]. apply H_view in B. rewrite B. reflexivity.
    + destruct x; injection B as <- <-; cbn [view_objs]; lia.
  - intros st r st' B. cbn [build objs] in *. destruct (c_host cfg); [|discriminate B].
    destruct (node_format code); [|discriminate B]. cbn [alloc] in B. injection B as <- <-. cbn [ds_heap].
    rewrite !app_length. cbn. lia.
  - split; intros; cbn in *; match goal with X : Ok _ = Ok _ |- _ => injection X as <- <- end; lia.
  - destruct H0 as [H1 H2]. split; intros; rewrite objs_vals_cons.
    + rewrite build_members_cons in H0. apply bind_Ok in H0 as [[x st1] [B1 B]]. apply bind_Ok in B as [acc1 [_ B]].
      apply H in B1. apply H1 in B. lia.
    + rewrite build_elems_cons in H0. apply bind_Ok in H0 as [[x st1] [B1 B]]. apply bind_Ok in B as [acc1 [_ B]].
      apply H in B1. apply H2 in B. lia.
  - intros acc st acc' st' B. cbn in B. injection B as <- <-. cbn. lia.
  - intros acc st acc' st' B. rewrite build_pairs_cons in B. apply bind_Ok in B as [[x st1] [B1 B]].
    apply bind_Ok in B as [[y st2] [B2 B]]. apply bind_Ok in B as [acc1 [_ B]].
    rewrite objs_pairs_cons. apply H in B1. apply H0 in B2. apply H1 in B. lia.
Qed.
End Objs.

Scheme wire_mind := Induction for wire Sort Prop
  with wbody_mind := Induction for wbody Sort Prop
  with wseq_mind := Induction for wseq Sort Prop
  with wprs_mind := Induction for wprs Sort Prop.
Combined Scheme wire_mutind from wire_mind, wbody_mind, wseq_mind, wprs_mind.
Lemma tagged_length t bs : tagged t bs -> (1 <= length bs)%nat.
Proof. intros [k ->]. rewrite app_length. cbn. lia. Qed.
Lemma wviewb_length version v bs : wviewb version v bs -> (view_objs v <= length bs)%nat.
Proof. intros [|]; cbn; lia. Qed.
Theorem wire_objs version :
  (forall w bs, wire version w bs -> (objs w <= length bs /\ 1 <= length bs)%nat) /\
  (forall w bs, wbody version w bs -> (objs w <= S (length bs))%nat) /\
  (forall vs bs, wseq version vs bs -> (objs_vals vs <= length bs)%nat) /\
  (forall ps bs, wprs version ps bs -> (objs_pairs ps <= length bs)%nat).
Proof.
  cut ((forall w bs (_ : wire version w bs), (objs w <= length bs /\ 1 <= length bs)%nat) /\
  (forall w bs (_ : wbody version w bs), (objs w <= S (length bs))%nat) /\
  (forall vs bs (_ : wseq version vs bs), (objs_vals vs <= length bs)%nat) /\
  (forall ps bs (_ : wprs version ps bs), (objs_pairs ps <= length bs)%nat)); [tauto|].
  apply wire_mutind; intros; rewrite ?app_length in *;
    repeat match goal with X : tagged _ _ |- _ => apply tagged_length in X
                      | X : wviewb _ _ _ |- _ => apply wviewb_length in X end;
    try (cbn [objs objs_vals objs_pairs]; lia).
  destruct v as [[|] _]; cbn; lia.
Qed.
