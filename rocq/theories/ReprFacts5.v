(** Evaluation of the calls that JSRepr writes for maps, sets and errors. *)
From Coq Require Import Ascii String List NArith ZArith Bool Arith Lia.
From Verif Require Import Base Dict SpecArray SpecNumber ModelTags ModelArray ModelValue SpecObject ModelObject SpecMap ModelMap ModelHeap ModelEncode ModelReprText
  ValueFacts ArrayFacts ArrayFacts2 ArrayFacts3 ObjectFacts Prop_Object2 HashFacts MapFacts SpecEq SpecRepr ReprFacts ReprFacts2 ReprFacts3 ReprFacts4.
Import ListNotations.
Open Scope list_scope.
Open Scope nat_scope.

(** ** Keys of copies *)
Lemma copies_keys H G ks ws ss : (exists X, G = H ++ X) -> Forall2 (copy G) ks ws -> NoDup (refs ws) ->
  Forall2 (fun k s => same_value_zero (heap_bytes H) k = Ok s) ks ss -> NoDup ss ->
  exists ss', Forall2 (fun w s => same_value_zero (heap_bytes G) w = Ok s) ws ss' /\ NoDup ss' /\
    (forall s, In s ss' -> (exists b, s = SId b /\ In b (refs ws)) \/ (In s ss /\ forall b, s <> SId b)).
Proof.
  intros X C. revert ss. induction C as [|k w ks ws C CS IH]; intros ss ND F NS.
  - exists []. inversion F; subst. split; [constructor|]. split; [constructor|]. intros s [].
  - inversion F as [|? s ? ss0 E F0]; subst. inversion NS as [|? ? NI NS0]; subst.
    assert (NoDup (refs ws)) as ND0. { unfold refs in *. cbn [flat_map] in ND. destruct w; try exact ND. inversion ND. assumption. }
    destruct (IH ss0 ND0 F0 NS0) as [ss' [F' [NS' W]]].
    destruct (match k with VRef o => Some o | _ => None end) as [o|] eqn:K.
    + destruct k; try discriminate. injection K as ->. destruct (copy_ref _ _ _ C) as [b [x [y [-> [_ [Y [_ J]]]]]]].
      exists (SId b :: ss'). split; [|split].
      * constructor; [|exact F']. cbn [same_value_zero]. unfold heap_bytes. rewrite Y. destruct y; try discriminate; reflexivity.
      * constructor; [|exact NS']. intros I. destruct (W _ I) as [[c [Q I']]|[_ Q]]; [|eapply Q; reflexivity]. injection Q as <-. unfold refs in ND. cbn [flat_map app] in ND. inversion ND. contradiction.
      * intros s' [<-|I]; [left; exists b; split; [reflexivity|left; reflexivity]|]. destruct (W _ I) as [[c [Q I']]|[I' Q]]; [left; exists c; split; [exact Q|right; exact I']|right; split; [right; exact I'|exact Q]].
    + assert (forall o, k <> VRef o) as NR by (intros o ->; discriminate). pose proof (copy_leaf _ _ _ C NR) as ->.
      assert (same_value_zero (heap_bytes G) k = Ok s) as E' by (destruct k; try exact E; exfalso; eapply NR; reflexivity).
      assert (forall b, s <> SId b) as SN.
      { intros b ->. clear -E NR. assert (forall n, num_key n <> SId b) as NK by (intros n; unfold num_key; destruct n; try discriminate; destruct (canon _ _); discriminate).
        destruct k; cbn [same_value_zero] in E; try discriminate; [|injection E as E; eapply NK; exact E|eapply NR; reflexivity].
        destruct (float_overflows _); [discriminate|]. injection E as E. exact (NK (Finite z 0) E). }
      exists (s :: ss'). split; [constructor; assumption|]. split.
      * constructor; [|exact NS']. intros I. destruct (W _ I) as [[c [Q I']]|[I' Q]]; [eapply SN; exact Q|contradiction].
      * intros s' [<-|I]; [right; split; [left; reflexivity|exact SN]|]. destruct (W _ I) as [[c [Q I']]|[I' Q]].
        -- left. exists c. split; [exact Q|]. unfold refs. cbn [flat_map]. apply in_or_app. right. exact I'.
        -- right. split; [right; exact I'|exact Q].
Qed.
Lemma dset_fresh {V} s (x : V) m : ~ In s (map fst m) -> dset svz_eqb s x m = m ++ [(s, x)].
Proof.
  induction m as [|[s' x'] m IH]; intros NI; cbn [dset app]; [reflexivity|]. destruct (svz_eqb s s') eqn:E.
  - apply svz_eqb_spec in E as ->. exfalso. apply NI. left. reflexivity.
  - rewrite IH; [reflexivity|]. intros I. apply NI. right. exact I.
Qed.
Lemma jm_update_fresh B ps : forall ss (m : jsmap val), Forall2 (fun p s => same_value_zero B (fst p) = Ok s) ps ss -> NoDup (map fst m ++ ss) ->
  jm_update B m ps = (Ok tt, m ++ combine ss ps).
Proof.
  induction ps as [|[k v] ps IH]; intros ss m F ND; inversion F as [|? s ? ss0 E F0]; subst; cbn [jm_update combine].
  - rewrite app_nil_r. reflexivity.
  - unfold jm_set. cbn [fst] in E. rewrite E. cbn [bind]. rewrite dset_fresh. 2:{ intros I. apply NoDup_remove_2 in ND. apply ND, in_or_app. left. exact I. }
    rewrite IH with (ss := ss0); [rewrite <- app_assoc; reflexivity|exact F0|]. rewrite map_app, <- app_assoc. exact ND.
Qed.
Lemma js_union_fresh B ks : forall ss (m : jsset), Forall2 (fun k s => same_value_zero B k = Ok s) ks ss -> NoDup (map fst m ++ ss) ->
  js_union B m ks = (Ok tt, m ++ combine ss ks).
Proof.
  induction ks as [|k ks IH]; intros ss m F ND; inversion F as [|? s ? ss0 E F0]; subst; cbn [js_union combine].
  - rewrite app_nil_r. reflexivity.
  - unfold js_add. rewrite E. cbn [bind]. rewrite dset_fresh. 2:{ intros I. apply NoDup_remove_2 in ND. apply ND, in_or_app. left. exact I. }
    rewrite IH with (ss := ss0); [rewrite <- app_assoc; reflexivity|exact F0|]. rewrite map_app, <- app_assoc. exact ND.
Qed.
Definition flat (qs : list (val * val)) : list val := flat_map (fun q => [fst q; snd q]) qs.
Lemma flat_copies G ps qs : length qs = length ps -> Forall2 (copy G) (flat ps) (flat qs) -> Forall2 (copy G) (map fst ps) (map fst qs) /\ Forall2 (copy G) (map snd ps) (map snd qs).
Proof.
  revert qs. induction ps as [|p ps IH]; intros [|q qs] L C; try discriminate; [split; constructor|]. unfold flat in C. cbn [flat_map app] in C.
  inversion C as [|? ? ? ? C1 C']; subst. inversion C' as [|? ? ? ? C2 C3]; subst. destruct (IH qs (eq_add_S _ _ L) C3) as [I1 I2]. split; constructor; assumption.
Qed.
Lemma in_flat qs v : In v (flat qs) <-> exists q, In q qs /\ (v = fst q \/ v = snd q).
Proof. unfold flat. rewrite in_flat_map. split; intros [q [I J]]; exists q; split; auto; [destruct J as [<-|[<-|[]]]; auto|destruct J as [->| ->]; cbn; auto]. Qed.
Lemma flat_refs qs : NoDup (refs (flat qs)) -> NoDup (refs (map fst qs)).
Proof.
  induction qs as [|[k v] qs IH]; intros ND; [constructor|]. change (flat ((k, v) :: qs)) with ([k; v] ++ flat qs) in ND. unfold refs in ND. rewrite flat_map_app in ND. fold (refs [k; v]) in ND. fold (refs (flat qs)) in ND.
  assert (NoDup (refs (flat qs))) as N2. { clear IH. induction (refs [k; v]) as [|b l IHl]; [exact ND|]. apply IHl. inversion ND. assumption. }
  specialize (IH N2). cbn [map]. unfold refs. cbn [flat_map]. fold (refs (map fst qs)). destruct k as [| | | | | | |b]; try exact IH. cbn [app]. constructor; [|exact IH].
  intros I. apply refs_in in I. apply in_map_iff in I as [q [Q I]]. unfold refs at 1 in ND. cbn [flat_map app] in ND. inversion ND as [|? ? NI _]; subst. apply NI. apply in_or_app. right. apply refs_in, in_flat. exists q. auto.
Qed.

Section Calls.
Variable H : heap.
Variable float_repr : N -> list N.
Notation eval := (eval float_repr).
Notation evals := (evals H).
Notation arg_eval := (arg_eval float_repr).
Notation evaluates := (evaluates H float_repr).
Notation good := (good H float_repr).
Notation B := (heap_bytes H).
(** ** Leaves *)
Definition leaf_expr (v : val) : expr :=
  match v with
  | VHole => EName (chars "JSHole")
  | VUndef => EName (chars "JSUndefined")
  | VNone => EName (chars "None")
  | VBool b => EName (chars (if b then "True" else "False"))
  | _ => ELit v
  end.
Lemma evaluates_leaf v : (forall o, v <> VRef o) -> evaluates v (leaf_expr v).
Proof.
  intros NR G X. exists [v], [], (PV v). rewrite app_nil_r. split; [|split].
  - destruct v as [| | |[|]| | | |o]; try reflexivity. 
  - split.
    + constructor; [apply cp_leaf; exact NR|constructor].
    + intros b [->|[]]. exfalso. eapply NR. reflexivity.
    + unfold refs. cbn [flat_map]. destruct v; try (exfalso; eapply NR; reflexivity); constructor.
    + intros i x E. destruct i; discriminate.
  - exists v. auto.
Qed.
(** ** Pairs *)
Lemma evals_pairs {D A} (kv : D -> val * val) (h : D -> E A) (out : val -> val -> A) ds :
  Forall (fun d => evals [fst (kv d); snd (kv d)] (h d) (fun vs' x => exists k v, vs' = [k; v] /\ x = out k v)) ds ->
  evals (flat (map kv ds)) (e_each h ds) (fun vs' xs => exists qs, vs' = flat qs /\ length qs = length ds /\ xs = map (fun q => out (fst q) (snd q)) qs).
Proof.
  intros F. induction F as [|d ds D0 F IH]; cbn [map e_each].
  - eapply evals_mono; [apply evals_ret|]. intros vs' x [-> ->]. exists []. auto.
  - change (flat (kv d :: map kv ds)) with ([fst (kv d); snd (kv d)] ++ flat (map kv ds)). eapply evals_bind; [exact D0|]. intros ws1 x [k [v [-> ->]]]. cbn beta.
    rewrite <- (app_nil_r (flat (map kv ds))). eapply evals_bind; [exact IH|]. intros ws2 xs [qs [-> [L ->]]]. eapply evals_mono; [apply evals_ret|]. intros ws3 y [-> ->].
    exists ((k, v) :: qs). rewrite app_nil_r. cbn [length map fst snd]. auto.
Qed.
Lemma evals_two {A} (d1 d2 : item unit) (out : pv -> pv -> A) : good d1 -> good d2 ->
  evals [dv d1; dv d2] (e_bind (eval (de d1)) (fun k => e_bind (eval (de d2)) (fun v => e_ret (out k v)))) (fun vs' x => exists k v, vs' = [k; v] /\ x = out (PV k) (PV v)).
Proof.
  intros D1 D2. change [dv d1; dv d2] with ([dv d1] ++ [dv d2]). eapply evals_bind; [exact D1|]. intros ws1 x [k [-> ->]].
  rewrite <- (app_nil_r [dv d2]). eapply evals_bind; [exact D2|]. intros ws2 y [v [-> ->]]. eapply evals_mono; [apply evals_ret|]. intros ws3 z [-> ->]. exists k, v. auto.
Qed.
(** ** JSMap *)
Section Map.
Variable a : nat.
Variable m : jsmap val.
Hypothesis A : nth_error H a = Some (OMap m).
Hypothesis MADE : exists ops tr, jm_ops B [] ops = (tr, m).
Variable ds : list (item unit * item unit).
Hypothesis DV : map (fun d => (dv (fst d), dv (snd d))) ds = map snd m.
Hypothesis DG : Forall (fun d => good (fst d) /\ good (snd d)) ds.
Lemma map_keys : Forall2 (fun k s => same_value_zero B k = Ok s) (map fst (map snd m)) (map fst m) /\ NoDup (map fst m).
Proof.
  destruct MADE as [ops [tr E]]. destruct (jm_ops_refines B ops [] tr m (cinv_nil B _) E) as [[ND C] _]. split; [|exact ND].
  clear -C. induction m as [|[s p] m' IH]; [constructor|]. cbn [map]. constructor; [exact (C s p (or_introl eq_refl))|]. apply IH. intros s' x I. apply C. right. exact I.
Qed.
Lemma new_map_from G qs : (exists X, G = H ++ X) -> length qs = length m -> Forall2 (copy G) (flat (map snd m)) (flat qs) -> NoDup (refs (flat qs)) ->
  exists m', jm_update (heap_bytes G) [] qs = (Ok tt, m') /\ map snd m' = qs.
Proof.
  intros X L C ND. destruct map_keys as [F NS]. destruct (flat_copies G (map snd m) qs ltac:(rewrite map_length; exact L) C) as [C1 _].
  destruct (copies_keys H G _ _ _ X C1 (flat_refs _ ND) F NS) as [ss' [F' [NS' _]]].
  assert (Forall2 (fun p s => same_value_zero (heap_bytes G) (fst p) = Ok s) qs ss') as FQ.
  { clear -F'. revert ss' F'. induction qs as [|q qs IH]; intros ss' F'; inversion F'; subst; constructor; auto. }
  exists (combine ss' qs). split; [rewrite (jm_update_fresh _ qs ss' [] FQ NS'); reflexivity|]. apply map_snd_combine. rewrite (ReprFacts4.Forall2_len _ _ _ FQ). reflexivity.
Qed.
Lemma made_map G qs : length qs = length m -> Forall2 (copy G) (flat (map snd m)) (flat qs) -> forall m', map snd m' = qs ->
  js_obj (OMap m') = true /\ array_ok (OMap m') /\ (forall b, holds (OMap m') (VRef b) -> In (VRef b) (flat qs)) /\ node_copy G (OMap m) (OMap m').
Proof.
  intros L C m' E. destruct (flat_copies G (map snd m) qs ltac:(rewrite map_length; exact L) C) as [C1 C2]. split; [reflexivity|]. split; [exact Logic.I|]. split.
  - intros b [k [I|I]]; rewrite E in I; apply in_flat; eexists; (split; [exact I|auto]).
  - cbn [node_copy]. rewrite E. auto.
Qed.
Lemma ds_flat : flat (map snd m) = flat (map (fun d => (dv (fst d), dv (snd d))) ds).
Proof. rewrite DV. reflexivity. Qed.
Lemma ds_length : length ds = length m.
Proof. rewrite <- (map_length snd m), <- DV, map_length. reflexivity. Qed.
Lemma call_pairs : evaluates (VRef a) (ECall (chars "JSMap") [(APos, EList (map (fun d => ETuple [de (fst d); de (snd d)]) ds))]).
Proof.
  eapply evaluates_call with (vs := flat (map snd m))
    (Q := fun vs' avs => exists qs, vs' = flat qs /\ length qs = length m /\ avs = [VPos (PList (map (fun q => PTuple [PV (fst q); PV (snd q)]) qs))]); [exact A| |].
  - cbn [e_each]. rewrite <- (app_nil_r (flat _)).
    eapply evals_bind with (Q1 := fun ws y => exists qs, ws = flat qs /\ length qs = length m /\ y = VPos (PList (map (fun q => PTuple [PV (fst q); PV (snd q)]) qs))).
    + unfold ReprFacts3.arg_eval. cbn [fst snd]. rewrite ds_flat, <- ds_length. rewrite eval_list_eq.
      eapply evals_then with (f := VPos); [|reflexivity|intros ws x Q; exact Q]. 
      eapply evals_then with (f := PList) (Q1 := fun ws y => exists qs, ws = flat qs /\ length qs = length ds /\ y = map (fun q => PTuple [PV (fst q); PV (snd q)]) qs); [|reflexivity|intros ws x [qs [-> [L ->]]]; exists qs; auto].
      intros G X. rewrite e_each_map. revert G X. apply (evals_pairs (fun d => (dv (fst d), dv (snd d))) _ (fun k v => PTuple [PV k; PV v])).
      eapply Forall_impl; [|exact DG]. intros d [D1 D2]. cbn [fst snd]. intros G X. destruct (evals_two (fst d) (snd d) (fun k v => PTuple [k; v]) D1 D2 G X) as [ws [N [x [E R]]]]. exists ws, N, x. split; [|exact R].
      rewrite <- E. rewrite eval_tuple_eq. cbn [e_each]. unfold e_bind, e_ret. destruct (SpecRepr.eval _ _ G) as [[k G1]|]; [|reflexivity]. destruct (SpecRepr.eval _ _ G1) as [[v G2]|]; reflexivity.
    + intros ws1 y [qs [-> [L ->]]]. rewrite <- (app_nil_r []). eapply evals_bind; [apply evals_ret|]. intros ws2 xs [-> ->].
      eapply evals_mono; [apply evals_ret|]. intros ws3 z [-> ->]. rewrite !app_nil_r. exists qs. auto.
  - cbn beta. intros vs' avs [qs [-> [L ->]]] G X C ND. destruct (new_map_from G qs X L C ND) as [m' [E EM]]. destruct (made_map G qs L C m' EM) as [J [OK [HO NC]]].
    exists (OMap m'), []. split; [reflexivity|]. split; [|auto].
    change (construct float_repr G (chars "JSMap") ?p ?k) with (option_map OMap (new_map G p k)). unfold new_map. cbn [positional]. rewrite map_map.
    rewrite (all_some_map _ (fun q => q)) by (intros [k v] _; reflexivity). rewrite map_id, E. reflexivity.
Qed.
Lemma call_map_dict hs : Forall2 hashed (map fst (map snd m)) hs -> NoDup hs -> (forall k, In k (map fst (map snd m)) -> forall o, k <> VRef o) ->
  evaluates (VRef a) (ECall (chars "JSMap") [(APos, EDict (map (fun d => (de (fst d), de (snd d))) ds))]).
Proof.
  intros FH NDH LF.
  eapply evaluates_call with (vs := flat (map snd m))
    (Q := fun vs' avs => exists qs, vs' = flat qs /\ length qs = length m /\ avs = [VPos (PDict (map (fun q => (fst q, PV (snd q))) qs))]); [exact A| |].
  - cbn [e_each]. rewrite <- (app_nil_r (flat _)).
    eapply evals_bind with (Q1 := fun ws y => exists qs, ws = flat qs /\ length qs = length m /\ y = VPos (PDict (map (fun q => (fst q, PV (snd q))) qs))).
    + unfold ReprFacts3.arg_eval. cbn [fst snd].
      assert (evals (flat (map snd m)) (e_each (pair_eval float_repr) (map (fun d => (de (fst d), de (snd d))) ds)) (fun ws xs => exists qs, ws = flat qs /\ length qs = length m /\ xs = map (fun q => (PV (fst q), PV (snd q))) qs)) as M.
      { rewrite ds_flat, <- ds_length. intros G X. rewrite e_each_map. revert G X. apply (evals_pairs (fun d => (dv (fst d), dv (snd d))) _ (fun k v => (PV k, PV v))).
        eapply Forall_impl; [|exact DG]. intros d [D1 D2]. cbn [fst snd]. exact (evals_two (fst d) (snd d) pair D1 D2). }
      intros G X. destruct (M G X) as [ws [N [xs [E [RS [qs [-> [L ->]]]]]]]]. exists (flat qs), N, (VPos (PDict (map (fun q => (fst q, PV (snd q))) qs))).
      unfold e_bind at 1. rewrite eval_dict_eq. unfold e_bind. rewrite E. destruct (flat_copies (G ++ N) (map snd m) qs ltac:(rewrite map_length; exact L) (rs_copy _ _ _ _ RS)) as [C1 _].
      assert (map fst qs = map fst (map snd m)) as EK. { clear -C1 LF. induction C1 as [|k w ks ws C CS IH]; [reflexivity|]. f_equal; [apply (copy_leaf _ _ _ C); apply LF; left; reflexivity|]. apply IH. intros k' I. apply LF. right. exact I. }
      rewrite <- EK in FH.
      assert (map (fun q => (PV (fst q), PV (snd q))) qs = combine (map PV (map fst qs)) (map PV (map snd qs))) as ->. { clear. induction qs as [|q qs IH]; [reflexivity|]. cbn. f_equal. exact IH. }
      rewrite (dict_display_fresh (G ++ N) (map fst qs) hs (map PV (map snd qs))) with (lhs := []); [|rewrite !map_length; reflexivity|exact FH|constructor|exact NDH].
      assert ([] ++ combine (map fst qs) (map PV (map snd qs)) = map (fun q => (fst q, PV (snd q))) qs) as ->. { clear. induction qs as [|q qs IH]; [reflexivity|]. cbn in *. f_equal. exact IH. }
      split; [reflexivity|]. split; [exact RS|]. exists qs. auto.
    + intros ws1 y [qs [-> [L ->]]]. rewrite <- (app_nil_r []). eapply evals_bind; [apply evals_ret|]. intros ws2 xs [-> ->].
      eapply evals_mono; [apply evals_ret|]. intros ws3 z [-> ->]. rewrite !app_nil_r. exists qs. auto.
  - cbn beta. intros vs' avs [qs [-> [L ->]]] G X C ND. destruct (new_map_from G qs X L C ND) as [m' [E EM]]. destruct (made_map G qs L C m' EM) as [J [OK [HO NC]]].
    exists (OMap m'), []. split; [reflexivity|]. split; [|auto].
    change (construct float_repr G (chars "JSMap") ?p ?k) with (option_map OMap (new_map G p k)). unfold new_map. cbn [positional]. rewrite map_map.
    rewrite (all_some_map _ (fun q => q)) by (intros [k v] _; reflexivity). rewrite map_id, E. reflexivity.
Qed.
Lemma call_map_empty : m = [] -> evaluates (VRef a) (ECall (chars "JSMap") []).
Proof.
  intros E0. eapply evaluates_call with (vs := []); [exact A|apply evals_ret|]. intros vs' avs [-> ->] G X C ND. exists (OMap []), []. rewrite E0. repeat split; try constructor. intros b [k [[]|[]]].
Qed.
End Map.
(** ** JSSet *)
Section Set_.
Variable a : nat.
Variable m : jsset.
Hypothesis A : nth_error H a = Some (OSet m).
Hypothesis MADE : exists ops tr, js_ops B [] ops = (tr, m).
Lemma call_set_empty : m = [] -> evaluates (VRef a) (ECall (chars "JSSet") []).
Proof.
  intros E0. eapply evaluates_call with (vs := []); [exact A|apply evals_ret|]. intros vs' avs [-> ->] G X C ND. exists (OSet []), []. rewrite E0. repeat split; try constructor. intros b [].
Qed.
Variable ds : list (item unit).
Hypothesis DV : map dv ds = map snd m.
Hypothesis DG : Forall good ds.
Lemma call_set : evaluates (VRef a) (ECall (chars "JSSet") [(APos, EList (map de ds))]).
Proof.
  eapply evaluates_call with (vs := map snd m) (Q := fun vs' avs => length vs' = length m /\ avs = [VPos (PList (map PV vs'))]); [exact A| |].
  - cbn [e_each]. rewrite <- (app_nil_r (map snd m)). eapply evals_bind with (Q1 := fun ws y => length ws = length m /\ y = VPos (PList (map PV ws))).
    + unfold ReprFacts3.arg_eval. cbn [fst snd]. rewrite <- (map_length snd m), <- DV. eapply evals_then with (f := VPos); [apply evals_list; exact DG|reflexivity|].
      cbn beta. intros ws y [L ->]. rewrite map_length. auto.
    + intros ws1 y [L1 ->]. rewrite <- (app_nil_r []). eapply evals_bind; [apply evals_ret|]. intros ws2 xs [-> ->]. eapply evals_mono; [apply evals_ret|]. intros ws3 z [-> ->]. rewrite !app_nil_r. auto.
  - cbn beta. intros vs' avs [L ->] G X C ND.
    destruct MADE as [ops [tr E]]. destruct (js_ops_refines B ops [] tr m (cinv_nil B _) E) as [[NS CI] _].
    assert (Forall2 (fun k s => same_value_zero B k = Ok s) (map snd m) (map fst m)) as F.
    { clear -CI. induction m as [|[s p] m' IH]; [constructor|]. cbn [map]. constructor; [exact (CI s p (or_introl eq_refl))|]. apply IH. intros s' x I. apply CI. right. exact I. }
    destruct (copies_keys H G _ _ _ X C ND F NS) as [ss' [F' [NS' _]]].
    assert (map snd (combine ss' vs') = vs') as EV by (apply map_snd_combine; rewrite (ReprFacts4.Forall2_len _ _ _ F'); reflexivity).
    exists (OSet (combine ss' vs')), []. split; [reflexivity|]. split.
    { change (construct float_repr G (chars "JSSet") ?p ?k) with (option_map OSet (new_set G p k)). unfold new_set. cbn [positional].
      rewrite map_map. rewrite (all_some_map _ (fun q => q)) by (intros q _; reflexivity). rewrite map_id, (js_union_fresh _ vs' ss' [] F' NS'). reflexivity. }
    split; [reflexivity|]. split; [exact Logic.I|]. split.
    + intros b I. cbn [holds] in I. rewrite EV in I. exact I.
    + cbn [node_copy]. rewrite EV. exact C.
Qed.
End Set_.
(** ** JSError *)
Definition error_args (n : list N) (m : list N) (s : option (list N)) (c : val) : list (option (list N) * val) :=
  [(None, VStr m)] ++ (if listN_eqb n (chars "Error") then [] else [(Some (chars "name"), VStr n)]) ++
  (match s with None => [] | Some s => [(Some (chars "stack"), VStr s)] end) ++ (match c with VNone => [] | _ => [(Some (chars "cause"), c)] end).
Lemma call_error a n m s c (ds : list (item (option (list N)))) : nth_error H a = Some (OError n (Some m) s c) ->
  map dk ds = map fst (error_args n m s c) -> map dv ds = map snd (error_args n m s c) -> Forall good ds ->
  evaluates (VRef a) (ECall (chars "JSError") (map (fun d => (arg_of (dk d), de d)) ds)).
Proof.
  intros A DK DV DG. eapply evaluates_call with (vs := map snd (error_args n m s c)); [exact A|rewrite <- DV; apply evals_args; exact DG|].
  intros vs' avs [L ->] G X C ND. rewrite DK.
  assert (exists y kw, keywords (keyed (map (fun q => av_of (fst q) (snd q)) (combine (map fst (error_args n m s c)) vs'))) [] = Some kw /\
    construct float_repr G (chars "JSError") (positional (map (fun q => av_of (fst q) (snd q)) (combine (map fst (error_args n m s c)) vs'))) kw = Some (OError n (Some m) s y) /\
    (y = VNone \/ In y vs') /\ copy G c y) as [y [kw [E1 [E2 [IN CY]]]]].
  { clear -C. unfold error_args in *. cbn [app map fst snd] in *. inversion C as [|? w0 ? vs0 C0 C']; subst. apply copy_leaf in C0; [|discriminate]. subst w0. clear C.
    change (chars "JSError") with (map N_of_ascii (list_ascii_of_string "JSError")).
    assert (listN_eqb n (chars "Error") = true -> n = chars "Error") as EN by (intros Q; apply listN_eqb_spec in Q; exact Q).
    destruct (listN_eqb n (chars "Error")); destruct s as [s|]; cbn [app map fst snd] in *;
    repeat match goal with C : Forall2 (copy G) (VStr _ :: _) _ |- _ => inversion C as [|? ? ? ? D0 ?]; subst; clear C; apply copy_leaf in D0; [|discriminate]; subst end;
    try (rewrite (EN eq_refl); clear EN);
    (assert (c = VNone \/ c <> VNone) as [->|NC] by (destruct c; auto; right; discriminate);
      [cbn [map fst snd] in *; match goal with C : Forall2 (copy G) [] _ |- _ => inversion C; subst end; exists VNone; eexists; split; [reflexivity|]; split; [reflexivity|]; split; [left; reflexivity|apply cp_leaf; discriminate]
      |assert (match c with VNone => [] | _ => [(Some (chars "cause"), c)] end = [(Some (chars "cause"), c)]) as EC by (destruct c; try reflexivity; congruence); rewrite EC in *; cbn [map fst snd] in *;
       match goal with C : Forall2 (copy G) [c] _ |- _ => inversion C as [|? y ? ? CC C2]; subst; inversion C2; subst end; exists y; eexists; split; [reflexivity|]; split; [reflexivity|]; split; [right; cbn; auto 6|exact CC]]). }
  exists (OError n (Some m) s y), kw. split; [exact E1|]. split; [exact E2|]. split; [reflexivity|]. split; [exact Logic.I|]. split.
  - intros b Q. cbn [holds] in Q. subst y. destruct IN as [Q|I]; [discriminate|exact I].
  - cbn [node_copy]. auto.
Qed.
End Calls.
