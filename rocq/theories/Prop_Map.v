(** C39 and C40: JSMap and JSSet. [bytes_of] says which objects are Python bytes, which compare by value. *)
From Coq Require Import List NArith ZArith Bool Lia.
From Verif Require ModelHeap.
From Verif Require Import Base Dict SpecNumber ModelValue ValueFacts SpecKey KeyFacts SpecMap ModelMap MapFacts.
Import ListNotations.
Open Scope Z_scope.

(** C39. Every run of operations on a fresh JSMap gives the answers of a list of entries with distinct
    keys. Missing: int keys too large for a float raise OverflowError ([kdeviation]). *)
Theorem C39_map_refines_entries_partial : forall V bytes_of (ops : list (kop V)) tr m,
  jm_ops bytes_of [] ops = (tr, m) ->
  exists l, kspecs bytes_of [] tr l /\ distinct_keys bytes_of l /\
            jm_op bytes_of m KItems = (KEntries l, m) /\ jm_op bytes_of m KIter = (KKeys (map fst l), m).
Proof.
  intros V bytes_of ops tr m H. destruct (jm_ops_refines bytes_of ops [] tr m (cinv_nil _ _) H) as [I S].
  exists (map snd m). split; [exact S|]. split; [|split].
  - intros i j a b A B NE. eapply (cinv_distinct bytes_of fst m i j); eauto.
  - cbn [jm_op]. unfold jm_items, jm_iter. rewrite (jm_items_of_spec bytes_of m m I (incl_refl m)). reflexivity.
  - cbn [jm_op]. unfold jm_iter. rewrite <- (map_map snd fst). reflexivity.
Qed.
Print Assumptions C39_map_refines_entries_partial.

(** The full claim, with no deviation, when no key is such an int. *)
Definition tame_kop {V} (o : kop V) : Prop :=
  (forall k, op_key o = Some k -> ~ huge k) /\ (forall ps, o = KUpdate ps -> forall k v, In (k, v) ps -> ~ huge k).
Inductive kspecs_strict {V} bytes_of : list (val * V) -> list (kop V * kresp V) -> list (val * V) -> Prop :=
| kst_nil l : kspecs_strict bytes_of l [] l
| kst_cons l o r l1 rest l2 : kspec bytes_of l o r l1 -> kspecs_strict bytes_of l1 rest l2 ->
    kspecs_strict bytes_of l ((o, r) :: rest) l2.
Theorem C39_map_refines_entries : forall V bytes_of (ops : list (kop V)) tr m, Forall tame_kop ops ->
  jm_ops bytes_of [] ops = (tr, m) ->
  exists l, kspecs_strict bytes_of [] tr l /\ distinct_keys bytes_of l /\
            jm_op bytes_of m KItems = (KEntries l, m).
Proof.
  intros V bytes_of ops tr m T H.
  destruct (C39_map_refines_entries_partial V bytes_of ops tr m H) as [l [S [D [I _]]]].
  exists l. split; [|auto]. clear D I. revert S T H. generalize (@nil (val * V)) as l0. generalize (@nil (svz * (val * V))) as m0.
  revert tr. induction ops as [|o ops IH]; intros tr m0 l0 S T H; cbn [jm_ops] in H.
  - injection H as <- <-. inversion S; subst. constructor.
  - destruct (jm_op bytes_of m0 o) as [r m1] eqn:E1. destruct (jm_ops bytes_of m1 ops) as [tr2 m2] eqn:E2.
    injection H as <- <-. inversion S as [|? ? ? l1 ? ? SO SR]; subst. inversion T as [|? ? TO TR]; subst.
    destruct SO as [SO|DV].
    + econstructor; eauto.
    + exfalso. destruct TO as [T1 T2]. inversion DV as [? k E HG|ps k v rr l' P HG]; subst.
      * exact (T1 k E HG).
      * apply (T2 _ eq_refl k v); [apply in_or_app; cbn; auto|exact HG].
Qed.
Print Assumptions C39_map_refines_entries.

(** Two keys that Python's dict would confuse or tell apart: True and 1 are different keys, 0 and -0.0
    the same; a key is replaced in place together with its value. *)
Definition m39 : list (kop nat) :=
  [KSet (VInt 0) 10%nat; KSet (VBool true) 11%nat; KSet (VInt 1) 12%nat; KSet (VFloat (2 ^ 63)) 13%nat; KDel (VBool true)].
Example C39_case : Forall tame_kop m39 /\
  jm_op (fun _ => None) (snd (jm_ops (fun _ => None) [] m39)) KItems =
    (KEntries [(VFloat (2 ^ 63), 13%nat); (VInt 1, 12%nat)], snd (jm_ops (fun _ => None) [] m39)).
Proof.
  split; [|vm_compute; reflexivity].
  repeat constructor; intros; try discriminate; intros [z [E L]];
    match goal with X : op_key _ = Some _ |- _ => injection X as <- end; try discriminate; injection E as <-; vm_compute in L; apply L; reflexivity.
Qed.

(** A huge int cannot be a key, though JavaScript Maps take any BigInt. *)
Theorem C39_refuted_huge_int : exists (k : val), forall l : list (val * nat), exists r,
  jm_op (fun _ => None) [] (KSet k 0%nat) = (r, []) /\ ~ kspec (fun _ => None) [] (KSet k 0%nat) r l.
Proof.
  exists (VInt (2 ^ 1024)). intros l. eexists. split; [vm_compute; reflexivity|]. intros H. inversion H.
Qed.
Print Assumptions C39_refuted_huge_int.

(** C40. The same for sets. *)
Theorem C40_set_refines_members_partial : forall bytes_of ops tr m,
  js_ops bytes_of [] ops = (tr, m) ->
  exists l, sspecs bytes_of [] tr l /\ distinct_members bytes_of l /\ js_op bytes_of m SIter = (SMembers l, m).
Proof.
  intros bytes_of ops tr m H. destruct (js_ops_refines bytes_of ops [] tr m (cinv_nil _ _) H) as [I S].
  exists (map snd m). split; [exact S|]. split; [|reflexivity].
  intros i j a b A B NE. exact (cinv_distinct bytes_of (fun k => k) m i j a b I A B NE).
Qed.
Print Assumptions C40_set_refines_members_partial.

(** After any run of adds and discards of representable values, exactly the members added and not
    discarded since are contained. *)
Definition add_or_discard (o : sop) : Prop := exists k, ~ huge k /\ (o = SAdd k \/ o = SDiscard k).
Inductive last_was_add bytes_of (k : val) : list sop -> Prop :=
| lwa_here k' before after : js_same bytes_of k' k ->
    (forall k'', In (SDiscard k'') after -> ~ js_same bytes_of k'' k) ->
    last_was_add bytes_of k (before ++ SAdd k' :: after).
Theorem C40_contains_iff_added_last : forall bytes_of ops tr m k, Forall add_or_discard ops -> ~ huge k ->
  js_ops bytes_of [] ops = (tr, m) ->
  exists b, js_op bytes_of m (SContains k) = (SBoolean b, m) /\ (b = true <-> last_was_add bytes_of k ops).
Proof.
  intros bytes_of ops tr m k A NH H.
  assert (forall x, ~ huge x -> exists s, same_value_zero bytes_of x = Ok s) as SV.
  { intros x X. destruct (same_value_zero bytes_of x) as [s|e] eqn:E; eauto. apply svz_err in E as [_ E]. contradiction. }
  destruct (SV k NH) as [s S]. exists (dmem svz_eqb s m). split; [cbn [js_op]; unfold js_contains; rewrite S; reflexivity|].
  revert tr m H. induction ops as [|o ops IH] using rev_ind; intros tr m H.
  - injection H as <- <-. split; [discriminate|]. intros L. inversion L as [k' before after ? ? E]. destruct before; discriminate.
  - assert (exists tr1 m1, js_ops bytes_of [] ops = (tr1, m1) /\ m = snd (js_op bytes_of m1 o)) as [tr1 [m1 [E1 ->]]].
    { clear -H. revert H. generalize (@nil (svz * val)) as m0. revert tr m. induction ops as [|p ops IH]; intros tr m m0 H; cbn [app js_ops] in *.
      - destruct (js_op bytes_of m0 o) as [r m1] eqn:E. injection H as <- <-. exists [], m0. rewrite E. auto.
      - destruct (js_op bytes_of m0 p) as [r m1]. destruct (js_ops bytes_of m1 (ops ++ [o])) as [tr2 m2] eqn:E.
        injection H as <- <-. destruct (IH _ _ _ E) as [tr1 [m3 [-> ->]]]. eauto. }
    apply Forall_app in A as [A AO]. inversion AO as [|? ? [x [NX OX]] _]; subst.
    specialize (IH A tr1 m1 E1). destruct (SV x NX) as [t T]. pose proof (svz_same bytes_of x k t s T S) as SK.
    destruct OX as [->| ->]; cbn [js_op].
    + unfold js_add. rewrite T. cbn [bind snd]. unfold dmem in *. rewrite (dget_dset _ svz_eqb_spec).
      destruct (svz_eqb s t) eqn:EQ.
      * apply svz_eqb_spec in EQ as ->. split; [|reflexivity]. intros _. apply lwa_here; [apply SK; reflexivity|intros ? []].
      * rewrite IH. split; intros L; inversion L as [k' before after SM ND E].
        -- rewrite <- app_assoc. cbn [app]. apply lwa_here; [exact SM|]. intros k'' IN. apply in_app_or in IN as [IN|[IN|[]]]; [auto|discriminate].
        -- destruct after as [|o' after] using rev_ind.
           ++ apply app_inj_tail in E as [-> E]. injection E as ->. apply SK in SM as ->. rewrite (proj2 (svz_eqb_spec s s) eq_refl) in EQ. discriminate.
           ++ rewrite app_comm_cons, app_assoc in E. apply app_inj_tail in E as [<- ->]. apply lwa_here; [exact SM|].
              intros k'' IN. apply ND. apply in_or_app. auto.
    + unfold js_discard. rewrite T. cbn [bind snd]. destruct (svz_eqb s t) eqn:EQ.
      * apply svz_eqb_spec in EQ as <-.
        assert (dmem svz_eqb s (if dmem svz_eqb s m1 then ddel svz_eqb s m1 else m1) = false) as ->.
        { pose proof (proj1 (js_ops_refines bytes_of ops [] tr1 m1 (cinv_nil _ _) E1)) as [N _].
          destruct (dmem svz_eqb s m1) eqn:M; [|exact M]. unfold dmem. rewrite (dget_ddel _ svz_eqb_spec) by exact N.
          rewrite (proj2 (svz_eqb_spec s s) eq_refl). reflexivity. }
        split; [discriminate|]. intros L. inversion L as [k' before after SM ND E].
        destruct after as [|o' after] using rev_ind.
        -- apply app_inj_tail in E as [_ E]. discriminate.
        -- rewrite app_comm_cons, app_assoc in E. apply app_inj_tail in E as [_ ->]. exfalso.
           apply (ND x); [apply in_or_app; cbn; auto|]. apply SK. reflexivity.
      * assert (dmem svz_eqb s (if dmem svz_eqb t m1 then ddel svz_eqb t m1 else m1) = dmem svz_eqb s m1) as ->.
        { pose proof (proj1 (js_ops_refines bytes_of ops [] tr1 m1 (cinv_nil _ _) E1)) as [N _].
          destruct (dmem svz_eqb t m1) eqn:M; [|reflexivity]. unfold dmem. rewrite (dget_ddel _ svz_eqb_spec) by exact N.
          rewrite EQ. reflexivity. }
        rewrite IH. split; intros L; inversion L as [k' before after SM ND E].
        -- rewrite <- app_assoc. cbn [app]. apply lwa_here; [exact SM|]. intros k'' IN. apply in_app_or in IN as [IN|[IN|[]]]; [auto|].
           injection IN as <-. intros XK. apply SK in XK as ->. rewrite (proj2 (svz_eqb_spec s s) eq_refl) in EQ. discriminate.
        -- destruct after as [|o' after] using rev_ind.
           ++ apply app_inj_tail in E as [_ E]. discriminate.
           ++ rewrite app_comm_cons, app_assoc in E. apply app_inj_tail in E as [<- ->]. apply lwa_here; [exact SM|].
              intros k'' IN. apply ND. apply in_or_app. auto.
Qed.
Print Assumptions C40_contains_iff_added_last.
Example C40_case : Forall add_or_discard [SAdd (VInt 1); SAdd (VStr [97%N]); SDiscard (VFloat 0)] /\
  last_was_add (fun _ => None) (VInt 1) [SAdd (VInt 1); SAdd (VStr [97%N]); SDiscard (VFloat 0)].
Proof.
  split.
  - repeat constructor; eexists; (split; [|eauto]); intros [z [E L]]; try discriminate. injection E as <-. vm_compute in L. apply L. reflexivity.
  - apply (lwa_here _ _ (VInt 1) [] _).
    + apply (svz_same (fun _ => None) (VInt 1) (VInt 1) _ _ eq_refl eq_refl). reflexivity.
    + intros k [H|[H|[]]]; [discriminate|]. injection H as <-. intros SM.
      apply (svz_same (fun _ => None) (VFloat 0) (VInt 1) _ _ eq_refl eq_refl) in SM. vm_compute in SM. discriminate.
Qed.

(** Which objects of a heap are the same key: an object is the same key as itself, and bytes objects with the same content are the same key. *)
Theorem C39_objects_as_keys : forall (H : ModelHeap.heap) a b,
  same_value_zero (ModelHeap.heap_bytes H) (VRef a) = same_value_zero (ModelHeap.heap_bytes H) (VRef b) <->
  a = b \/ exists d, nth_error H a = Some (ModelHeap.OBytes d) /\ nth_error H b = Some (ModelHeap.OBytes d).
Proof.
  intros H a b. cbn [same_value_zero]. unfold ModelHeap.heap_bytes. split.
  - intros E. destruct (Nat.eq_dec a b) as [->|N]; [auto|right].
    destruct (nth_error H a) as [[]|]; destruct (nth_error H b) as [[]|]; try discriminate; injection E as E; try congruence. subst. eauto.
  - intros [->|[d [-> ->]]]; reflexivity.
Qed.
Print Assumptions C39_objects_as_keys.
Example C39_objects_as_keys_example : let H := [ModelHeap.OBytes [1%N]; ModelHeap.OBytes [1%N]; ModelHeap.OBytes [2%N]; ModelHeap.OByteArray [1%N]; ModelHeap.OByteArray [1%N]] in
  let same a b := same_value_zero (ModelHeap.heap_bytes H) (VRef a) = same_value_zero (ModelHeap.heap_bytes H) (VRef b) in
  (same 0 1 /\ ~ same 0 2 /\ ~ same 3 4 /\ ~ same 0 3)%nat.
Proof. cbn. repeat split; congruence. Qed.
