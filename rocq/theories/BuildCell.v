(** Building a value does not look at the errors that exist already. *)
From Coq Require Import List NArith ZArith Bool Lia.
From Verif Require Import Base ModelTags ModelValue ModelObject ModelMap ModelBuffer ModelHeap ModelDecode SpecWire SpecBuild DecodeSound.
Import ListNotations.
Open Scope N_scope.

Section Cell.
Variable cfg : dcfg.
Variable i : nat.
Variable e : obj.
Hypothesis IsErr : exists n m s c, e = OError n m s c.
Definition swapped (st : dstate) : dstate := store i e st.
Definition error_at (st : dstate) : Prop := exists n m s c, nth_error (ds_heap st) i = Some (OError n m s c).
Lemma set_app h x : (i < length h)%nat -> heap_set (h ++ [x]) i e = heap_set h i e ++ [x].
Proof. revert i. induction h as [|y h IH]; intros [|k] L; cbn in *; try lia; auto. f_equal. apply IH. lia. Qed.
Lemma set_len h k x : length (heap_set h k x) = length h.
Proof. revert k. induction h as [|y h IH]; intros [|k]; cbn; auto. Qed.
Lemma set_comm h j x : i <> j -> heap_set (heap_set h j x) i e = heap_set (heap_set h i e) j x.
Proof. revert i j. induction h as [|y h IH]; intros [|a] [|b] N; cbn; auto; try congruence. f_equal. apply IH. lia. Qed.
Lemma set_nth_other h j : i <> j -> nth_error (heap_set h i e) j = nth_error h j.
Proof. revert i j. induction h as [|y h IH]; intros [|a] [|b] N; cbn; auto; try congruence. Qed.
Lemma set_nth_other' h j x : i <> j -> nth_error (heap_set h j x) i = nth_error h i.
Proof. revert i j. induction h as [|y h IH]; intros [|a] [|b] N; cbn; auto; try congruence. Qed.
Lemma set_nth_same h : (i < length h)%nat -> nth_error (heap_set h i e) i = Some e.
Proof. revert i. induction h as [|y h IH]; intros [|a] L; cbn in *; try lia; auto. apply IH. lia. Qed.
Lemma error_lt st : error_at st -> (i < length (ds_heap st))%nat.
Proof. intros (n & m & s & c & E). apply nth_error_Some. congruence. Qed.

Lemma sw_alloc_rec x st : error_at st -> alloc_rec x (swapped st) = (fst (alloc_rec x st), swapped (snd (alloc_rec x st))) /\ error_at (snd (alloc_rec x st)) /\ i <> fst (alloc_rec x st).
Proof.
  intros E. pose proof (error_lt st E). unfold alloc_rec, alloc, swapped, store, ModelDecode.record. cbn [fst snd ds_heap ds_log].
  rewrite set_len, set_app by auto. split; auto. split; [|lia]. destruct E as (n & m & s & c & E). exists n, m, s, c. cbn [ds_heap]. rewrite nth_error_app1; auto.
Qed.
Lemma sw_alloc x st : error_at st -> alloc x (swapped st) = (fst (alloc x st), swapped (snd (alloc x st))) /\ error_at (snd (alloc x st)) /\ i <> fst (alloc x st).
Proof.
  intros E. pose proof (error_lt st E). unfold alloc, swapped, store. cbn [fst snd ds_heap ds_log].
  rewrite set_len, set_app by auto. split; auto. split; [|lia]. destruct E as (n & m & s & c & E). exists n, m, s, c. cbn [ds_heap]. rewrite nth_error_app1; auto.
Qed.
Lemma sw_record v st : record v (swapped st) = swapped (record v st).
Proof. reflexivity. Qed.
Lemma error_record v st : error_at st -> error_at (record v st).
Proof. auto. Qed.
Lemma sw_str enc s st : build_str enc s (swapped st) = swapped (build_str enc s st).
Proof. unfold build_str. destruct (stag_eqb _ _); auto. Qed.
Lemma error_str enc s st : error_at st -> error_at (build_str enc s st).
Proof. unfold build_str. destruct (stag_eqb _ _); auto. Qed.
Lemma sw_field f st : build_field f (swapped st) = (fst (build_field f st), swapped (snd (build_field f st))).
Proof. destruct f as [[enc s]|]; cbn; auto. rewrite sw_str. auto. Qed.
Lemma error_field f st : error_at st -> error_at (snd (build_field f st)).
Proof. destruct f as [[enc s]|]; cbn; auto. apply error_str. Qed.
Lemma sw_store j x st : i <> j -> store j x (swapped st) = swapped (store j x st).
Proof. intros N. unfold store, swapped. cbn [ds_heap ds_log]. unfold store. cbn [ds_heap ds_log]. rewrite set_comm; auto. Qed.
Lemma error_store j x st : i <> j -> error_at st -> error_at (store j x st).
Proof. intros N (n & m & s & c & E). exists n, m, s, c. unfold store. cbn [ds_heap]. rewrite set_nth_other'; auto. Qed.

(** [a] is [b] with the error replaced in the state. *)
Definition follows {A} (a b : result (A * dstate)) : Prop :=
  a = match b with Ok (v, st) => Ok (v, swapped st) | Err x => Err x end /\ forall v st, b = Ok (v, st) -> error_at st.
Lemma follows_ok {A} (v : A) st : error_at st -> follows (Ok (v, swapped st)) (Ok (v, st)).
Proof. intros E. split; auto. intros ? ? [= <- <-]. auto. Qed.
Lemma follows_err {A} x : follows (A := A) (Err x) (Err x).
Proof. split; auto. discriminate. Qed.
Lemma follows_bind {A B} (a b : result (A * dstate)) (k : A * dstate -> result (B * dstate)) :
  follows a b -> (forall v st, error_at st -> follows (k (v, swapped st)) (k (v, st))) -> follows (bind a k) (bind b k).
Proof. intros [-> E] K. destruct b as [[v st]|x]; cbn [bind]; [apply K; eauto|apply follows_err]. Qed.
Lemma follows_pure {A B} (a : result A) (k k' : A -> result (B * dstate)) : (forall v, follows (k v) (k' v)) -> follows (bind a k) (bind a k').
Proof. intros K. destruct a; cbn [bind]; [apply K|apply follows_err]. Qed.
Lemma backing_swapped st b : error_at st -> backing_of (ds_heap (swapped st)) b = backing_of (ds_heap st) b.
Proof.
  intros E. unfold backing_of, swapped, store. cbn [ds_heap]. destruct (Nat.eq_dec i b) as [<-|N]; [|rewrite set_nth_other; auto].
  rewrite set_nth_same by (apply error_lt; auto). destruct IsErr as (n & m & s & c & ->). destruct E as (n' & m' & s' & c' & ->). reflexivity.
Qed.
Lemma sw_view b v st : error_at st -> follows (build_view b v (swapped st)) (build_view b v st).
Proof.
  intros E. unfold build_view. destruct v as [v|]; [|apply follows_ok; auto]. rewrite backing_swapped by auto.
  apply follows_pure. intros x. destruct (sw_alloc_rec (OView b x) st E) as (A & B & C). rewrite A. destruct (alloc_rec (OView b x) st). apply follows_ok. auto.
Qed.
Lemma sw_buf b st : error_at st -> build_buf b (swapped st) = (fst (build_buf b st), swapped (snd (build_buf b st))) /\ error_at (snd (build_buf b st)).
Proof.
  intros E. destruct b; unfold build_buf; (split; [apply sw_alloc_rec || apply sw_alloc | apply sw_alloc_rec || apply sw_alloc]; auto).
Qed.
Ltac start x st E := let A := fresh "A" in let B := fresh "B" in let C := fresh "C" in
  destruct (sw_alloc_rec x st E) as (A & B & C); rewrite A; clear A; let j := fresh "j" in let s := fresh "st" in destruct (alloc_rec x st) as [j s]; cbn [fst snd] in B, C.
Theorem build_swapped :
  (forall w st, error_at st -> follows (build cfg w (swapped st)) (build cfg w st)) /\
  (forall vs, (forall acc st, error_at st -> follows (build_members cfg vs acc (swapped st)) (build_members cfg vs acc st)) /\
              (forall k acc st, error_at st -> follows (build_elems cfg vs k acc (swapped st)) (build_elems cfg vs k acc st))) /\
  (forall ps acc st, error_at st -> follows (build_pairs cfg ps acc (swapped st)) (build_pairs cfg ps acc st)).
Proof.
  apply wval_mutind.
  - intros. apply follows_ok; auto.
  - intros. apply follows_ok; auto.
  - intros. apply follows_ok; auto.
  - intros. apply follows_ok; auto.
  - intros. apply follows_ok; auto.
  - intros enc s st E. cbn [build]. rewrite sw_str. apply follows_ok, error_str, E.
  - intros. cbn [build]. rewrite sw_record. apply follows_ok, error_record. auto.
  - intros. cbn [build]. rewrite sw_record. apply follows_ok, error_record. auto.
  - intros. cbn [build]. rewrite sw_record. apply follows_ok, error_record. auto.
  - intros b st E. cbn [build]. destruct (c_date cfg b); [|apply follows_err]. start (ODate n) st E. apply follows_ok; auto.
  - intros enc s fl st E. cbn [build]. cbv zeta. rewrite sw_str. apply follows_pure. intros x. start x (build_str enc s st) (error_str enc s st E). apply follows_ok; auto.
  - intros ps IH st E. rewrite !build_map. start (OMap []) st E. apply follows_bind; auto. intros o s Es. rewrite sw_store by auto. apply follows_ok, error_store; auto.
  - intros vs [IH _] st E. rewrite !build_set. start (OSet []) st E. apply follows_bind; auto. intros o s Es. rewrite sw_store by auto. apply follows_ok, error_store; auto.
  - intros ps IH st E. rewrite !build_object. start (OObject jo_empty) st E. apply follows_bind; auto. intros o s Es. rewrite sw_store by auto. apply follows_ok, error_store; auto.
  - intros vs [_ IH] ps IH' st E. rewrite !build_dense. start (OArray jo_empty) st E. apply follows_bind; auto. intros o s Es. apply follows_bind; auto.
    intros o' s' Es'. rewrite sw_store by auto. apply follows_ok, error_store; auto.
  - intros len ps IH st E. rewrite !build_sparse. start (OArray jo_empty) st E. apply follows_pure. intros o. apply follows_bind; auto.
    intros o' s' Es'. rewrite sw_store by auto. apply follows_ok, error_store; auto.
  - intros name msg stack st E. cbn [build]. rewrite sw_field. pose proof (error_field msg st E) as E1. destruct (build_field msg st) as [m s1]. cbn [fst snd] in *.
    rewrite sw_field. pose proof (error_field stack s1 E1) as E2. destruct (build_field stack s1) as [k s2]. cbn [fst snd] in *.
    start (OError (proto_name name) (message_of m) k VNone) s2 E2. apply follows_ok; auto.
  - intros name msg stack cause IH late st E. rewrite !build_errorc. rewrite sw_field. pose proof (error_field msg st E) as E1. destruct (build_field msg st) as [m s1]. cbn [fst snd] in *.
    rewrite sw_field. pose proof (error_field stack s1 E1) as E2. destruct (build_field stack s1) as [k s2]. cbn [fst snd] in *.
    start (OError (proto_name name) (message_of m) k VNone) s2 E2. apply follows_bind; auto. intros c s3 E3.
    rewrite sw_field. pose proof (error_field late s3 E3) as E4. destruct (build_field late s3) as [l s4]. cbn [fst snd] in *.
    rewrite sw_store by auto. apply follows_ok, error_store; auto.
  - intros b v st E. cbn [build]. destruct (sw_buf b st E) as [A B]. rewrite A. destruct (build_buf b st) as [j s]. cbn [fst snd] in *. apply sw_view; auto.
  - intros id v st E. cbn [build]. change (ds_log (swapped st)) with (ds_log st). destruct (id <? _); [|apply follows_err].
    destruct (nth_error (ds_log st) (N.to_nat id)) as [x|]; [|apply follows_err]. destruct v as [v|].
    + destruct x as [| | | | | | |o]; try apply follows_err.
      destruct (Nat.eq_dec i o) as [<-|N].
      * unfold swapped at 1, store. cbn [ds_heap]. rewrite set_nth_same by (apply error_lt; auto). destruct IsErr as (n & m & s & c & ->).
        destruct E as (n' & m' & s' & c' & ->). apply follows_err.
      * unfold swapped at 1, store. cbn [ds_heap]. rewrite set_nth_other by auto. destruct (nth_error (ds_heap st) o) as [x|]; [|apply follows_err].
        destruct (is_buffer x); [apply sw_view; auto|apply follows_err].
    + destruct x; apply follows_ok; auto.
  - intros id st E. cbn [build]. start (OSharedRef id) st E. apply follows_ok; auto.
  - intros code d st E. cbn [build]. destruct (c_host cfg); [|apply follows_err]. destruct (node_format code); [|apply follows_err].
    destruct (sw_alloc (OBuffer (mkBuf d (zlen d) false false)) st E) as (A & B & C). rewrite A. destruct (alloc (OBuffer _) st) as [j s]. cbn [fst snd] in *.
    destruct (sw_alloc (OView j (mkView v 0 None false)) s B) as (A' & B' & C'). rewrite A'. destruct (alloc (OView j _) s). apply follows_ok; auto.
  - split; intros; apply follows_ok; auto.
  - intros w IH r [IH1 IH2]. split.
    + intros acc st E. rewrite !build_members_cons. apply follows_bind; auto. intros v s Es. apply follows_pure. auto.
    + intros k acc st E. rewrite !build_elems_cons. apply follows_bind; auto. intros v s Es. apply follows_pure. auto.
  - intros acc st E. apply follows_ok; auto.
  - intros k IHk v IHv r IHr acc st E. rewrite !build_pairs_cons. apply follows_bind; auto. intros kv s Es. apply follows_bind; auto. intros vv s' Es'. apply follows_pure. auto.
Qed.
End Cell.

Lemma set_set h k x y : heap_set (heap_set h k x) k y = heap_set h k y.
Proof. revert k. induction h as [|z h IH]; intros [|k]; cbn; auto. f_equal. auto. Qed.
(** The stack before the cause means the same as the stack after it. *)
Theorem build_late_stack cfg name msg enc s cause st : enc <> kStringObject ->
  build cfg (WErrorC name msg (Some (enc, s)) cause None) st = build cfg (WErrorC name msg None cause (Some (enc, s))) st.
Proof.
  intros N. rewrite !build_errorc. destruct (build_field msg st) as [m s1]. cbn [build_field first_some].
  assert (S : forall st, build_str enc s st = st). { intros s0. unfold build_str. destruct (stag_eqb enc kStringObject) eqn:Q; auto. apply internal_stag_dec_bl in Q. contradiction. }
  rewrite S. unfold alloc_rec, alloc, ModelDecode.record. cbn [ds_heap ds_log].
  set (e1 := OError (proto_name name) (message_of m) (Some s) VNone). set (e0 := OError (proto_name name) (message_of m) None VNone).
  set (i := length (ds_heap s1)). set (st0 := mkD (ds_heap s1 ++ [e0]) (ds_log s1 ++ [VRef i])).
  assert (E : error_at i st0). { exists (proto_name name), (message_of m), None, VNone. cbn. rewrite nth_error_app2, Nat.sub_diag by reflexivity. reflexivity. }
  assert (Sw : mkD (ds_heap s1 ++ [e1]) (ds_log s1 ++ [VRef i]) = swapped i e1 st0).
  { unfold swapped, store, st0. cbn [ds_heap ds_log]. f_equal. unfold i. generalize (ds_heap s1) as h. induction h as [|x h IH]; cbn; auto. f_equal. auto. }
  rewrite Sw. destruct (proj1 (build_swapped cfg i e1 ltac:(unfold e1; eauto)) cause st0 E) as [-> _].
  destruct (build cfg cause st0) as [[c s2]|x]; cbn [bind]; auto. rewrite S. unfold swapped, store. cbn [ds_heap ds_log]. rewrite set_set. reflexivity.
Qed.
