(** Lemmas for C75: what the dicts contain. *)
From Coq Require Import List NArith ZArith Bool Lia ZifyBool ZifyNat ZifyN.
From Verif Require Import Base Dict SpecNumber ModelValue ValueFacts ModelTags SpecKey KeyFacts SpecObject ModelObject ObjectFacts ModelMap MapFacts ModelBuffer ModelHeap ModelDecode
  SpecContents ContentsFacts ModelEncode HashFacts ModelContainers SpecContainers ContainersFacts.
Import ListNotations.
Open Scope nat_scope.

(** * Python dicts *)
Section Dicts.
Variable key : val -> option hkey.
Notation sk := (same_dkey key).
Lemma sk_spec a b : sk a b = true <-> exists x, key a = Some x /\ key b = Some x.
Proof.
  unfold same_dkey. destruct (key a), (key b); split; try discriminate; try (intros (x & ? & ?); discriminate).
  - intros E. apply hkey_eqb_spec in E. subst. eauto.
  - intros (x & [= ->] & [= ->]). apply hkey_eqb_spec. reflexivity.
Qed.
Lemma sk_sym a b : sk a b = true -> sk b a = true.
Proof. rewrite !sk_spec. intros (x & ? & ?). eauto. Qed.
Lemma sk_trans a b c : sk a b = true -> sk b c = true -> sk a c = true.
Proof. rewrite !sk_spec. intros (x & ? & ?) (y & ? & ?). exists x. split; congruence. Qed.
Lemma dict_put_cases d k v :
  (exists r k' v', nth_error d r = Some (k', v') /\ sk k k' = true /\ length (dict_put key d k v) = length d /\
     nth_error (dict_put key d k v) r = Some (k', v) /\ (forall i, i <> r -> nth_error (dict_put key d k v) i = nth_error d i)) \/
  (dict_put key d k v = d ++ [(k, v)] /\ forall k' v', In (k', v') d -> sk k k' = false).
Proof.
  induction d as [|[k1 v1] d IH]; cbn [dict_put]; [right; split; auto; intros ? ? []|].
  destruct (sk k k1) eqn:E.
  - left. exists 0, k1, v1. cbn. repeat split; auto. intros [|i] L; [lia|reflexivity].
  - destruct IH as [(r & k' & v' & A & B & C & D & F)|[-> B]].
    + left. exists (S r), k', v'. cbn [nth_error length]. repeat split; auto. intros [|i] L; [reflexivity|]. apply F. lia.
    + right. split; auto. intros k' v' [[= <- <-]|J]; eauto.
Qed.
Definition apart (d : list (val * val)) : Prop :=
  forall i j a b, nth_error d i = Some a -> nth_error d j = Some b -> i <> j -> sk (fst a) (fst b) = false.
Lemma nth_snoc {A} (d : list A) x i a : nth_error (d ++ [x]) i = Some a -> (i < length d /\ nth_error d i = Some a) \/ (i = length d /\ a = x).
Proof.
  intros E. destruct (Nat.lt_ge_cases i (length d)) as [L|L]; [rewrite nth_error_app1 in E; auto|].
  rewrite nth_error_app2 in E by auto. destruct (i - length d) as [|n] eqn:En; [|destruct n; discriminate]. injection E as <-. right. split; [lia|auto].
Qed.
Lemma sk_sym_f a b : sk a b = false -> sk b a = false.
Proof. intros E. destruct (sk b a) eqn:F; auto. apply sk_sym in F. congruence. Qed.
Lemma dict_put_apart d k v : apart d -> apart (dict_put key d k v).
Proof.
  intros A. destruct (dict_put_cases d k v) as [(r & k' & v' & E & Sk & L & Er & Eo)|[-> N]]; intros i j a b Ei Ej Ne.
  - assert (G : forall i a, nth_error (dict_put key d k v) i = Some a -> exists a', nth_error d i = Some a' /\ fst a' = fst a).
    { intros n c En. destruct (Nat.eq_dec n r) as [->|Nr]; [rewrite Er in En; injection En as <-; eauto|]. rewrite Eo in En by auto. eauto. }
    apply G in Ei as (a' & Ei & <-). apply G in Ej as (b' & Ej & <-). eapply A; eauto.
  - apply nth_snoc in Ei as [[Li Ei]|[-> ->]]; apply nth_snoc in Ej as [[Lj Ej]|[-> ->]]; try lia.
    + eapply A; eauto.
    + cbn. apply sk_sym_f. destruct a as [ka va]. apply nth_error_In in Ei. eauto.
    + cbn. destruct b as [kb vb]. apply nth_error_In in Ej. eauto.
Qed.
Lemma pyd_apart ps : apart (pyd key ps).
Proof.
  induction ps as [|[k v] ps IH] using rev_ind; [intros [|i] j a b; discriminate|]. rewrite pyd_snoc. apply dict_put_apart; auto.
Qed.
Definition like (a b : val) : Prop := a = b \/ sk a b = true.
Lemma like_sym a b : like a b -> like b a.
Proof. intros [->|E]; [left; auto|right; apply sk_sym; auto]. Qed.
(** An item of the dict is the last assignment to its key; every later one has made another item. *)
Lemma pyd_in ps : forall i k0 v, nth_error (pyd key ps) i = Some (k0, v) ->
  exists a k b, ps = a ++ (k, v) :: b /\ like k k0 /\
    forall k' v', In (k', v') b -> exists j k2 v2, j <> i /\ nth_error (pyd key ps) j = Some (k2, v2) /\ like k2 k'.
Proof.
  induction ps as [|[k1 v1] ps IH] using rev_ind; intros i k0 v; [destruct i; discriminate|]. rewrite pyd_snoc.
  destruct (dict_put_cases (pyd key ps) k1 v1) as [(r & k' & v' & E & Sk & L & Er & Eo)|[-> N]]; intros Ei.
  - destruct (Nat.eq_dec i r) as [->|Ne].
    + rewrite Er in Ei. injection Ei as <- <-. exists ps, k1, []. split; auto. split; [right; auto|]. intros ? ? [].
    + rewrite Eo in Ei by auto. destruct (IH _ _ _ Ei) as (a & k & b & -> & Lk & Bs). exists a, k, (b ++ [(k1, v1)]).
      split; [rewrite <- app_assoc; reflexivity|]. split; auto. intros k2 v2 J. apply in_app_iff in J as [J|[[= <- <-]|[]]].
      * destruct (Bs _ _ J) as (j & k3 & v3 & Nj & Ej & Lj). exists j. destruct (Nat.eq_dec j r) as [->|Nr].
        { exists k3, v1. rewrite E in Ej. injection Ej as <- <-. split; auto. }
        { exists k3, v3. rewrite Eo by auto. auto. }
      * exists r, k', v1. split; auto. split; auto. right. apply sk_sym. auto.
  - apply nth_snoc in Ei as [[Li Ei]|[-> [= -> ->]]].
    + destruct (IH _ _ _ Ei) as (a & k & b & -> & Lk & Bs). exists a, k, (b ++ [(k1, v1)]).
      split; [rewrite <- app_assoc; reflexivity|]. split; auto. intros k2 v2 J. apply in_app_iff in J as [J|[[= <- <-]|[]]].
      * destruct (Bs _ _ J) as (j & k3 & v3 & Nj & Ej & Lj). exists j, k3, v3. split; auto. split; auto.
        rewrite nth_error_app1; auto. apply nth_error_Some. congruence.
      * exists (length (pyd key (a ++ (k, v) :: b))), k1, v1. split; [lia|]. split; [|left; auto].
        rewrite nth_error_app2, Nat.sub_diag by lia. reflexivity.
    + exists ps, k1, []. split; auto. split; [left; auto|]. intros ? ? [].
Qed.
Lemma dict_put_keep d k v k0 v0 : In (k0, v0) d -> sk k k0 = false -> In (k0, v0) (dict_put key d k v).
Proof.
  intros J E. apply In_nth_error in J as [i Ei]. destruct (dict_put_cases d k v) as [(r & k' & v' & Er & Sk & L & Er' & Eo)|[-> N]].
  - assert (i <> r) by (intros ->; congruence). eapply nth_error_In with (n := i). rewrite Eo; auto.
  - apply in_app_iff. left. eapply nth_error_In; eauto.
Qed.
Lemma dict_put_here d k v : exists k0, In (k0, v) (dict_put key d k v) /\ like k0 k.
Proof.
  destruct (dict_put_cases d k v) as [(r & k' & v' & Er & Sk & L & Er' & Eo)|[-> N]].
  - exists k'. split; [eapply nth_error_In; eauto|]. right. apply sk_sym. auto.
  - exists k. split; [apply in_app_iff; right; cbn; auto|left; auto].
Qed.
Lemma dict_put_has d k v k0 v0 : In (k0, v0) d -> exists v1, In (k0, v1) (dict_put key d k v).
Proof.
  intros J. destruct (sk k k0) eqn:E; [|eauto using dict_put_keep]. apply In_nth_error in J as [i Ei].
  destruct (dict_put_cases d k v) as [(r & k' & v' & Er & Sk & L & Er' & Eo)|[-> N]].
  - destruct (Nat.eq_dec i r) as [->|Ne]; [exists v; rewrite Er in Ei; injection Ei as -> ->; eapply nth_error_In; eauto|].
    exists v0. eapply nth_error_In with (n := i). rewrite Eo; auto.
  - exists v0. apply in_app_iff. left. eapply nth_error_In; eauto.
Qed.
Lemma pyd_last a k v : forall b, Forall (fun p => sk (fst p) k = false) b -> exists k0, In (k0, v) (pyd key (a ++ (k, v) :: b)) /\ like k0 k.
Proof.
  induction b as [|[k1 v1] b IH] using rev_ind; intros F.
  - rewrite pyd_snoc. apply dict_put_here.
  - apply Forall_app in F as [F1 F2]. inversion F2; subst. cbn in *. destruct (IH F1) as (k0 & J & Lk).
    rewrite app_comm_cons, app_assoc, pyd_snoc. exists k0. split; auto. apply dict_put_keep; auto.
    destruct Lk as [->|E]; auto. destruct (sk k1 k0) eqn:E1; auto. rewrite (sk_trans _ _ _ E1 E) in *. discriminate.
Qed.
Lemma pyd_key ps : forall k v, In (k, v) ps -> exists k0 v0, In (k0, v0) (pyd key ps) /\ like k0 k.
Proof.
  induction ps as [|[k1 v1] ps IH] using rev_ind; intros k v; [intros []|]. rewrite pyd_snoc. intros J. apply in_app_iff in J as [J|[[= <- <-]|[]]].
  - apply IH in J as (k0 & v0 & J & Lk). destruct (dict_put_has _ k1 v1 _ _ J) as [v2 J2]. eauto.
  - destruct (dict_put_here (pyd key ps) k1 v1) as (k0 & J & Lk). eauto.
Qed.
End Dicts.

(** * Keys *)
Lemma hnumber_same x y : x <> NaN -> same_number x y -> hnumber x = hnumber y /\ hnumber x <> None.
Proof.
  destruct x, y; cbn; try contradiction; intros Ne E.
  - subst. split; [reflexivity|discriminate].
  - apply canon_eq in E. rewrite E. destruct (canon m0 e0). split; [reflexivity|discriminate].
Qed.
Lemma hnumber_none x : hnumber x = None <-> x = NaN.
Proof. destruct x; cbn; try (split; congruence). destruct (canon m e). split; discriminate. Qed.
Section Keys.
Variable h : heap.
Hypothesis Good : Forall (good_cell h) h.
Lemma cell v o : v = VRef o -> valid h v -> exists x, nth_error h o = Some x /\ good_cell h x.
Proof.
  intros -> V. cbn in V. destruct (nth_error h o) as [x|] eqn:E; [|apply nth_error_None in E; lia]. exists x. split; auto.
  rewrite Forall_forall in Good. apply Good. eapply nth_error_In; eauto.
Qed.
(** The hash of a reference *)
Definition cell_key (x : obj) : option hkey :=
  match x with
  | ORegExp s f => Some (HRegExp s f) | ODate d => Some (HDate d) | OShared i => Some (HShared i) | OTransfer i => Some (HTransfer i)
  | OSharedRef i => Some (HSharedRef i)
  | OView b _ => match nth_error h b with Some (OBuffer _) => None | _ => Some (HView [] HNil) end
  | _ => None
  end.
Lemma dkey_cell o x : nth_error h o = Some x -> good_cell h x -> dkey h (VRef o) = cell_key x.
Proof.
  intros E G. unfold dkey. rewrite hash_S, E. destruct x; try contradiction; cbn [cell_key]; auto.
  - cbn in G. rewrite G. reflexivity.
  - destruct G as (y & Ey & B). unfold backing_of. rewrite Ey. destruct y; try discriminate; cbn [bk_hashable].
    + assert (Gy : good_cell h (OBuffer b)) by (rewrite Forall_forall in Good; apply Good; eapply nth_error_In; eauto).
      cbn in Gy. cbn [bk_readonly]. rewrite Gy. reflexivity.
    + cbv zeta. replace (snd (view_memory BkInaccessible v)) with (@nil N) by (unfold view_memory; cbn; destruct (view_span _ _) as [[? ?] ?]; cbn; unfold slice; rewrite skipn_nil, firstn_nil; reflexivity). reflexivity.
    + cbv zeta. replace (snd (view_memory BkInaccessible v)) with (@nil N) by (unfold view_memory; cbn; destruct (view_span _ _) as [[? ?] ?]; cbn; unfold slice; rewrite skipn_nil, firstn_nil; reflexivity). reflexivity.
Qed.
Lemma unhashable_spec v : valid h v -> (hashable h v = false <-> unhashable h v).
Proof.
  intros V. split.
  - intros E. destruct (unhashable_ref _ _ E) as [o ->]. destruct (cell _ _ eq_refl V) as (x & Ex & G).
    unfold hashable in E. rewrite (dkey_cell _ _ Ex G) in E. exists o, x. split; auto. split; auto.
    destruct x; try contradiction; cbn in E; try discriminate; auto. destruct G as (y & Ey & B). rewrite Ey in E. destruct y; try discriminate. eauto.
  - intros (o & x & -> & Ex & U). destruct (cell _ _ eq_refl V) as (x' & Ex' & G). assert (x' = x) as -> by congruence.
    unfold hashable. rewrite (dkey_cell _ _ Ex G). destruct x; try contradiction; cbn; auto. destruct U as [buf ->]. reflexivity.
Qed.
Definition prim_key (v : val) : option hkey :=
  match v with
  | VNone => Some HNone | VUndef => Some HUndef | VHole => Some HHole | VStr s => Some (HStr s)
  | VBool b => hnumber (Finite (if b then 1 else 0) 0) | VInt z => hnumber (Finite z 0) | VFloat b => hnumber (ieee b)
  | VRef _ => None
  end.
Lemma dkey_prim v : (forall o, v <> VRef o) -> dkey h v = prim_key v.
Proof. intros Nr. unfold dkey. destruct v; rewrite hash_S; auto; [destruct b; reflexivity|]. exfalso. eapply Nr; eauto. Qed.
Lemma dkey_number v n : python_number v = Some n -> dkey h v = hnumber n.
Proof. intros E. rewrite dkey_prim by (destruct v; discriminate). destruct v; try discriminate E; injection E as <-; reflexivity. Qed.
Lemma dkey_other v k : python_number v = None -> dkey h v = Some k -> match k with HNum _ _ | HInf _ => False | _ => True end.
Proof.
  intros E Ek. destruct v; try discriminate E; try (rewrite dkey_prim in Ek by discriminate; injection Ek as <-; exact Logic.I).
  assert (P := hash_ref_kind h _ _ _ Ek). destruct k; try discriminate P; exact Logic.I.
Qed.
Lemma dkey_ref_prim v o k : python_number v = None -> (forall o, v <> VRef o) -> dkey h v = Some k -> dkey h (VRef o) = Some k -> False.
Proof.
  intros E Nr Ek Eo. assert (P := hash_ref_kind h _ _ _ Eo). rewrite dkey_prim in Ek by auto. destruct v; try discriminate E; try discriminate Ek; injection Ek as <-; discriminate P.
Qed.
Lemma dkey_one a b : valid h a -> valid h b -> (same_dkey (dkey h) a b = true <-> one_key h a b).
Proof.
  intros Va Vb. rewrite sk_spec. unfold one_key.
  destruct (python_number a) as [x|] eqn:Na, (python_number b) as [y|] eqn:Nb.
  - rewrite (dkey_number _ _ Na), (dkey_number _ _ Nb). split.
    + intros (k & E1 & E2). split; [intros ->; discriminate|]. apply hnumber_eq; congruence.
    + intros [Ne E]. destruct (hnumber_same _ _ Ne E) as [E1 E2]. destruct (hnumber x) as [k|] eqn:Ex; [|contradiction]. exists k. split; congruence.
  - split; [|contradiction]. intros (k & E1 & E2). apply (dkey_other _ _ Nb) in E2. rewrite (dkey_number _ _ Na) in E1. apply hnumber_num in E1. destruct k; auto.
  - split; [|contradiction]. intros (k & E1 & E2). apply (dkey_other _ _ Na) in E1. rewrite (dkey_number _ _ Nb) in E2. apply hnumber_num in E2. destruct k; auto.
  - assert (Pr : (forall o, a <> VRef o) -> (forall o, b <> VRef o) -> ((exists k, dkey h a = Some k /\ dkey h b = Some k) <-> a = b)).
    { intros Ra Rb. rewrite (dkey_prim a Ra), (dkey_prim b Rb). split.
      - intros (k & E1 & E2). destruct a; try discriminate Na; try discriminate E1; injection E1 as <-; destruct b; try discriminate Nb; try discriminate E2; cbn in E2; congruence.
      - intros <-. destruct a; try discriminate Na; try (eexists; split; reflexivity). exfalso. eapply Ra; eauto. }
    assert (Ref : forall v o, python_number v = None -> (forall o, v <> VRef o) -> (exists k, dkey h v = Some k /\ dkey h (VRef o) = Some k) -> False).
    { intros v o Nv Rv (k & E1 & E2). eapply dkey_ref_prim; eauto. }
    destruct (match a with VRef _ => true | _ => false end) eqn:Ra, (match b with VRef _ => true | _ => false end) eqn:Rb.
    + destruct a as [| | | | | |s|o]; try discriminate Ra; destruct b as [| | | | | |s'|o']; try discriminate Rb.
      destruct (cell _ _ eq_refl Va) as (x & Ex & Gx), (cell _ _ eq_refl Vb) as (y & Ey & Gy).
      rewrite (dkey_cell _ _ Ex Gx), (dkey_cell _ _ Ey Gy). split.
      * intros (k & E1 & E2). exists x, y. split; auto. split; auto.
        assert (Vw : forall b w, cell_key (OView b w) = Some k -> good_cell h (OView b w) -> no_memory h b /\ k = HView [] HNil).
        { intros b w E (y' & Ey' & B). cbn in E. rewrite Ey' in E. unfold no_memory. destruct y'; try discriminate; injection E as <-; eauto. }
        destruct x; try discriminate E1; try (apply Vw in E1 as [M1 ->]; auto; fail);
          try (cbn in E1; injection E1 as <-; destruct y; try discriminate E2; cbn; try (cbn in E2; congruence); apply Vw in E2 as [_ [=]]; auto; fail).
        apply Vw in E1 as [M1 ->]; auto. destruct y; try discriminate E2. apply Vw in E2 as [M2 _]; auto. cbn. auto.
      * intros (x' & y' & Ex' & Ey' & Oo). assert (x' = x) as -> by congruence. assert (y' = y) as -> by congruence.
        destruct x; try contradiction; cbn in Oo; try (subst y; cbn; eauto; fail).
        destruct y; try contradiction. destruct Oo as [(n & On) (n' & On')]. exists (HView [] HNil). cbn.
        destruct On as [->| ->], On' as [->| ->]; auto.
    + destruct a as [| | | | | |s|o]; try discriminate Ra. split; [intros (k & E1 & E2); exfalso; apply (Ref b o Nb); eauto; intros; destruct b; discriminate|].
      destruct b; discriminate.
    + destruct b as [| | | | | |s|o]; try discriminate Rb. split; [intros (k & E1 & E2); exfalso; apply (Ref a o Na); eauto; intros; destruct a; discriminate|].
      destruct a; discriminate.
    + rewrite Pr by (intros; try destruct a; try destruct b; discriminate). destruct a; try discriminate Ra; tauto.
Qed.
Lemma hashable_key v : hashable h v = true -> not_nan v -> dkey h v <> None.
Proof.
  unfold hashable. destruct v; try (destruct (dkey h _); [congruence|discriminate]). intros _ Nn E.
  rewrite (dkey_number (VFloat bits) _ eq_refl) in E. apply hnumber_none in E. apply Nn. cbn. congruence.
Qed.
Lemma svz_dkey a b s : same_value_zero no_bytes a = Ok s -> same_value_zero no_bytes b = Ok s -> dkey h a = dkey h b /\ (not_nan a -> not_nan b).
Proof.
  intros Ea Eb. assert (J : js_same no_bytes a b) by (apply (svz_js_same no_bytes a b s s Ea Eb); apply svz_eqb_spec; auto).
  unfold js_same in J. destruct (number_of a) as [x|] eqn:Na, (number_of b) as [y|] eqn:Nb; try contradiction.
  - assert (N : forall v n, number_of v = Some n -> dkey h v = hnumber n /\ python_number v = Some n).
    { intros v n E. assert (P : python_number v = Some n) by (destruct v; try discriminate E; auto). split; auto. apply dkey_number; auto. }
    destruct (N _ _ Na) as [-> Pa], (N _ _ Nb) as [-> Pb]. unfold not_nan. rewrite Pa, Pb.
    split; [|intros Nn E; apply Nn; injection E as ->; destruct x; try contradiction; reflexivity].
    destruct x; [destruct y; try contradiction; reflexivity| |]; apply hnumber_same; auto; discriminate.
  - assert (a = b) as ->; auto. destruct a, b; auto; destruct J as [->|(c & [=] & _)]; auto.
Qed.
End Keys.

(** * Maps *)
Section Maps.
Variable cfg : dcfg.
Notation z k := (same_value_zero no_bytes k).
Lemma map_snoc ps k v m : put_all cfg (OMap []) (ps ++ [(k, v)]) = Ok (OMap m) ->
  exists m0 s, put_all cfg (OMap []) ps = Ok (OMap m0) /\ z k = Ok s /\ m = dset svz_eqb s (k, v) m0.
Proof.
  rewrite put_all_snoc. destruct (put_all cfg (OMap []) ps) as [x|e]; cbn [bind]; [|discriminate]. intros E.
  pose proof (put_kind _ _ _ _ _ E) as Kd. destruct x; try contradiction. cbn in E. unfold jm_set in E. destruct (z k) as [s|] eqn:Es; cbn in E; [|discriminate].
  injection E as <-. eauto.
Qed.
Lemma dset_in {V} (s s' : svz) (x y : V) d : In (s', y) (dset svz_eqb s x d) -> (s' = s /\ y = x) \/ In (s', y) d.
Proof.
  induction d as [|[a w] d IH]; cbn; [intros [[= <- <-]|[]]; auto|]. destruct (svz_eqb s a) eqn:E; cbn.
  - apply svz_eqb_spec in E. subst a. intros [[= <- <-]|J]; auto.
  - intros [[= <- <-]|J]; auto. apply IH in J as [J|J]; auto.
Qed.
Lemma map_from ps : forall m, put_all cfg (OMap []) ps = Ok (OMap m) -> forall s k v, In (s, (k, v)) m -> In (k, v) ps /\ z k = Ok s.
Proof.
  induction ps as [|[k1 v1] ps IH] using rev_ind; intros m E s k v J; [injection E as <-; destruct J|].
  apply map_snoc in E as (m0 & s1 & E & Es & ->). apply dset_in in J as [[-> [= -> ->]]|J].
  - split; auto. apply in_app_iff. cbn. auto.
  - destruct (IH _ E _ _ _ J). split; auto. apply in_app_iff. auto.
Qed.
Lemma map_last a k v : forall b m, put_all cfg (OMap []) (a ++ (k, v) :: b) = Ok (OMap m) -> Forall (fun p => z (fst p) <> z k) b -> exists s, In (s, (k, v)) m.
Proof.
  induction b as [|[k1 v1] b IH] using rev_ind; intros m E F.
  - apply map_snoc in E as (m0 & s1 & E & Es & ->). destruct (dset_has s1 (k, v) m0) as (s' & _ & J). eauto.
  - apply Forall_app in F as [F1 F2]. inversion F2; subst. rewrite app_comm_cons, app_assoc in E. apply map_snoc in E as (m0 & s1 & E & Es & ->).
    destruct (IH _ E F1) as (s & J). exists s. apply dset_keeps; auto. destruct (svz_eqb s1 s) eqn:Eq; auto. apply svz_eqb_spec in Eq. subst s1.
    apply (map_from _ _ E) in J as [_ Ek]. cbn in *. congruence.
Qed.
Lemma dset_more {V} (s s' : svz) (x y : V) d : In (s', y) d -> exists y', In (s', y') (dset svz_eqb s x d).
Proof.
  induction d as [|[a w] d IH]; cbn; [intros []|]. intros [[= <- <-]|J]; destruct (svz_eqb s a); cbn; eauto. apply IH in J as [y' J]. eauto.
Qed.
Lemma map_key ps : forall m, put_all cfg (OMap []) ps = Ok (OMap m) -> forall k v, In (k, v) ps -> exists s k' v', In (s, (k', v')) m /\ z k' = Ok s /\ z k = Ok s.
Proof.
  induction ps as [|[k1 v1] ps IH] using rev_ind; intros m E k v J; [destruct J|].
  pose proof (map_from _ _ E) as From. apply map_snoc in E as (m0 & s1 & E & Es & ->). apply in_app_iff in J as [J|[[= <- <-]|[]]].
  - destruct (IH _ E _ _ J) as (s & k' & v' & J' & E1 & E2). destruct (dset_more s1 s (k1, v1) _ _ J') as [[k2 v2] J2].
    exists s, k2, v2. split; auto. split; auto. apply (From _ _ _ J2).
  - destruct (dset_has s1 (k1, v1) m0) as (s' & Eq & J'). apply svz_eqb_spec in Eq. subst s'. exists s1, k1, v1. auto.
Qed.
(** In step when the keys are one for the Map just when they are one for the dict *)
Lemma map_lockstep key ps : (forall a b, In a (map fst ps) -> In b (map fst ps) -> (same_dkey key a b = true <-> z a = z b)) ->
  forall m, put_all cfg (OMap []) ps = Ok (OMap m) ->
  Forall2 (fun e b => z (fst (snd e)) = Ok (fst e) /\ z (fst b) = Ok (fst e) /\ snd (snd e) = snd b) m (pyd key ps).
Proof.
  induction ps as [|[k v] ps IH] using rev_ind; intros I m E; [injection E as <-; constructor|].
  apply map_snoc in E as (m0 & s & E & Es & ->). rewrite pyd_snoc.
  assert (I0 : forall a b, In a (map fst ps) -> In b (map fst ps) -> (same_dkey key a b = true <-> z a = z b)).
  { intros a b A B. apply I; rewrite map_app, in_app_iff; auto. }
  specialize (IH I0 _ E).
  assert (Ik : forall b, In b (map fst (pyd key ps)) -> (same_dkey key k b = true <-> z k = z b)).
  { intros b B. apply pyd_keys in B. apply I; rewrite map_app, in_app_iff; cbn; auto. }
  clear I I0 E. induction IH as [|[s' [k' v']] [kd vd] m0 d (A & B & C) F IH]; cbn [dset dict_put]; [repeat constructor; auto|].
  cbn in A, B, C. subst vd. assert (svz_eqb s s' = same_dkey key k kd) as ->.
  { specialize (Ik kd (or_introl eq_refl)). rewrite Es, B in Ik. destruct (svz_eqb s s') eqn:E1, (same_dkey key k kd) eqn:E2; auto.
    - apply svz_eqb_spec in E1. subst s'. symmetry. apply Ik. auto.
    - pose proof (proj1 Ik eq_refl) as E3. injection E3 as ->. rewrite (proj2 (svz_eqb_spec s' s') eq_refl) in E1. discriminate. }
  destruct (same_dkey key k kd) eqn:E2.
  - assert (Ez : z k = z kd) by (apply (Ik kd (or_introl eq_refl)); auto). constructor; auto. cbn. split; [congruence|]. split; auto.
  - constructor; auto. apply IH. intros b J. apply Ik. cbn. auto.
Qed.
Section Heap.
Variable h : heap.
Hypothesis Good : Forall (good_cell h) h.
Lemma map_as_dict ps m : Forall (fun p => valid h (fst p) /\ hashable h (fst p) = true) ps -> put_all cfg (OMap []) ps = Ok (OMap m) ->
  as_dict h (map snd m) (pyd (dkey h) ps).
Proof.
  intros F E.
  assert (Fk : forall k, In k (map fst ps) -> valid h k /\ hashable h k = true).
  { intros k J. apply in_map_iff in J as ([k' v'] & <- & J). rewrite Forall_forall in F. apply (F _ J). }
  assert (Fd : forall k v, In (k, v) (pyd (dkey h) ps) -> valid h k /\ hashable h k = true).
  { intros k v J. apply (in_map fst), pyd_keys in J. auto. }
  assert (Fi : forall k v, In (k, v) (map snd m) -> exists s, In (s, (k, v)) m /\ In (k, v) ps /\ z k = Ok s).
  { intros k v J. apply in_map_iff in J as ([s q] & Eq & J). cbn in Eq. subst q. exists s. split; auto. apply (map_from _ _ E _ _ _ J). }
  assert (Refl : forall k, valid h k -> hashable h k = true -> not_nan k -> same_dkey (dkey h) k k = true).
  { intros k V Ha Nn. apply sk_spec. pose proof (hashable_key h k Ha Nn). destruct (dkey h k); [eauto|contradiction]. }
  split.
  - intros k0 v J Nn. pose proof (Fd _ _ J) as [V0 H0]. pose proof (Refl _ V0 H0 Nn) as S0. apply In_nth_error in J as [i Ei].
    destruct (pyd_in _ _ _ _ _ Ei) as (a & k & b & Ep & Lk & Bs). assert (Jk : In k (map fst ps)) by (subst ps; rewrite map_app; apply in_app_iff; cbn; auto).
    destruct (Fk _ Jk) as [Vk Hk]. assert (Sk : same_dkey (dkey h) k k0 = true) by (destruct Lk as [->|]; auto).
    rewrite Ep in E. destruct (map_last _ _ _ _ _ E) as [s J].
    + apply Forall_forall. intros [k' v'] J' Ez. cbn in Ez. destruct (map_key _ _ E k v) as (s & _ & _ & _ & _ & Es); [apply in_app_iff; cbn; auto|].
      destruct (svz_dkey h k' k s) as [Ed _]; [congruence|congruence|].
      destruct (Bs _ _ J') as (j & k2 & v2 & Nj & Ej & L2). pose proof (pyd_apart (dkey h) ps _ _ _ _ Ej Ei Nj) as Ap. cbn in Ap.
      assert (same_dkey (dkey h) k' k0 = true).
      { apply sk_spec in Sk as (q & E1 & E2). apply sk_spec. exists q. split; congruence. }
      destruct L2 as [->|L2]; [congruence|]. rewrite (sk_trans _ _ _ _ L2 H) in Ap. discriminate.
    + exists k. split; [apply in_map_iff; exists (s, (k, v)); auto|]. apply dkey_one; auto.
  - intros k v J. destruct (Fi _ _ J) as (s & _ & Jp & _). destruct (pyd_key (dkey h) ps _ _ Jp) as (k0 & v0 & J0 & Lk). exists k0, v0. split; auto.
    destruct Lk as [->|Lk]; auto. right. apply dkey_one; auto; [apply (Fd _ _ J0)|]. apply (in_map fst) in Jp. apply (Fk _ Jp).
  - intros i j [ka va] [kb vb] Ei Ej Ne O. pose proof (pyd_apart (dkey h) ps _ _ _ _ Ei Ej Ne) as Ap. cbn in *.
    apply nth_error_In in Ei. apply nth_error_In in Ej. apply dkey_one in O; [congruence|auto|apply (Fd _ _ Ei)|apply (Fd _ _ Ej)].
  - intros Nn Df.
    assert (Cor : forall a b, In a (map fst ps) -> In b (map fst ps) -> (same_dkey (dkey h) a b = true <-> z a = z b)).
    { intros a b Ja Jb. destruct (Fk _ Ja) as [Va Ha], (Fk _ Jb) as [Vb Hb].
      apply in_map_iff in Ja as ([a' va] & Ea & Ja). cbn in Ea. subst a'. apply in_map_iff in Jb as ([b' vb] & Eb & Jb). cbn in Eb. subst b'.
      destruct (map_key _ _ E _ _ Ja) as (sa & ka & wa & Ma & Za & Za'), (map_key _ _ E _ _ Jb) as (sb & kb & wb & Mb & Zb & Zb').
      destruct (svz_dkey h a ka sa Za' Za) as [Da _], (svz_dkey h b kb sb Zb' Zb) as [Db _].
      assert (Ia : In (ka, wa) (map snd m)) by (apply in_map_iff; exists (sa, (ka, wa)); auto).
      assert (Ib : In (kb, wb) (map snd m)) by (apply in_map_iff; exists (sb, (kb, wb)); auto).
      rewrite Za', Zb'. split.
      - intros Sk. apply sk_spec in Sk as (q & E1 & E2).
        assert (Sk' : same_dkey (dkey h) ka kb = true) by (apply sk_spec; exists q; split; congruence).
        destruct (Fi _ _ Ia) as (_ & _ & Pa & _), (Fi _ _ Ib) as (_ & _ & Pb & _). apply (in_map fst) in Pa, Pb.
        apply dkey_one in Sk'; [|auto|apply (Fk _ Pa)|apply (Fk _ Pb)].
        apply In_nth_error in Ma as [i Mi], Mb as [j Mj]. destruct (Nat.eq_dec i j) as [->|Ne]; [rewrite Mi in Mj; injection Mj as -> _ _; auto|].
        exfalso. refine (Df i j (ka, wa) (kb, wb) _ _ Ne Sk'); rewrite nth_error_map; [rewrite Mi|rewrite Mj]; reflexivity.
      - intros [= ->]. apply sk_spec. assert (dkey h ka = dkey h kb) by apply (svz_dkey h ka kb sb Za Zb).
        assert (Na : not_nan a) by (apply (svz_dkey h ka a sb Za Za'); eapply Nn; eauto).
        pose proof (hashable_key h a Ha Na). destruct (dkey h a) as [q|] eqn:Eq; [|contradiction]. exists q. split; congruence. }
    pose proof (map_lockstep (dkey h) ps Cor m E) as L. clear Df Nn.
    assert (Kd : forall b, In b (pyd (dkey h) ps) -> In (fst b) (map fst ps)) by (intros b J; apply (in_map fst), pyd_keys in J; auto).
    assert (Km : forall e, In e m -> In (fst (snd e)) (map fst ps)).
    { intros [s [k v]] J. apply (map_from _ _ E) in J as [J _]. apply (in_map fst) in J. auto. }
    clear E Fi. induction L as [|[s [k v]] [kd vd] m' d (A & B & C) L IH]; cbn [map]; constructor.
    + cbn in *. split; auto. pose proof (Km _ (or_introl eq_refl)) as Jk. pose proof (Kd _ (or_introl eq_refl)) as Jd. cbn in Jk, Jd.
      destruct (Fk _ Jk) as [Vk Hk], (Fk _ Jd) as [Vd Hd]. apply dkey_one; auto. apply Cor; auto. congruence.
    + apply IH; intros; [eapply Fd; cbn; eauto|apply Kd; cbn; auto|apply Km; cbn; auto].
Qed.
End Heap.
End Maps.

(** * Objects and arrays *)
Section Objects.
Variable cfg : dcfg.
Hypothesis Repr : repr_by_value cfg.
Notation norm := (normalise_property_key (c_float_repr cfg)).
Lemma property_val k p : property cfg k p <-> exists y, val_key k = Some y /\ norm y = Ok p.
Proof.
  split; intros (y & A & B); exists y; split; auto.
  - inversion A; reflexivity.
  - destruct k; try discriminate A; injection A as <-; constructor.
Qed.
Lemma property_one k p q : property cfg k p -> property cfg k q -> p = q.
Proof. rewrite !property_val. intros (y & A & B) (y' & A' & B'). congruence. Qed.
Lemma same_number_sym a b : same_number a b -> same_number b a.
Proof. rewrite <- !num_key_eq. auto. Qed.
Lemma same_number_trans a b c : same_number a b -> same_number b c -> same_number a c.
Proof. rewrite <- !num_key_eq. congruence. Qed.
Lemma dkey_property h a b p q : same_dkey (dkey h) a b = true -> property cfg a p -> property cfg b q -> p = q.
Proof.
  intros Sk Pa Pb. apply property_val in Pa as (x & Kx & Nx). apply property_val in Pb as (y & Ky & Ny). apply sk_spec in Sk as (t & Ea & Eb).
  assert (Nr : forall v w, val_key v = Some w -> forall o, v <> VRef o) by (intros v w E o ->; discriminate).
  rewrite dkey_prim in Ea by eauto. rewrite dkey_prim in Eb by eauto.
  assert (Sn : forall m n, hnumber m = Some t -> hnumber n = Some t -> same_number m n) by (intros m n E1 E2; apply hnumber_eq; congruence).
  assert (Fl : forall z f, same_number (ieee f) (Finite z 0) -> norm (KFloat f) = norm (KInt z)).
  { intros z f E. apply float_int_spec in E. cbn. rewrite E. reflexivity. }
  destruct a; try discriminate Kx; injection Kx as <-; destruct b; try discriminate Ky; injection Ky as <-; cbn [prim_key] in Ea, Eb.
  - pose proof (Sn _ _ Ea Eb) as E. assert (z0 = z) as -> by (unfold same_number, same_value in E; cbn in E; lia). congruence.
  - pose proof (Sn _ _ Eb Ea) as E. rewrite (Fl _ _ E) in Ny. congruence.
  - injection Eb as <-. apply hnumber_num in Ea. contradiction.
  - pose proof (Sn _ _ Ea Eb) as E. rewrite (Fl _ _ E) in Nx. congruence.
  - pose proof (Sn _ _ Ea Eb) as E. destruct (float_int bits) as [z|] eqn:Fa.
    + apply float_int_spec in Fa. rewrite (Fl _ _ Fa) in Nx. rewrite (Fl z) in Ny; [congruence|]. eapply same_number_trans; [apply same_number_sym; eauto|auto].
    + assert (Fb : float_int bits0 = None).
      { destruct (float_int bits0) as [z|] eqn:Fb; auto. apply float_int_spec in Fb. assert (X : same_number (ieee bits) (Finite z 0)) by (eapply same_number_trans; eauto).
        apply float_int_spec in X. congruence. }
      assert (Rp : c_float_repr cfg bits = c_float_repr cfg bits0).
      { apply Repr; auto. intros z X. apply float_int_spec in X. congruence. }
      cbn [normalise_property_key] in Nx, Ny. rewrite Fa in Nx. rewrite Fb in Ny.
      destruct (ieee bits) as [|n|m e] eqn:Ia; [discriminate Ea| |]; destruct (ieee bits0) as [|n'|m' e'] eqn:Ib; try contradiction.
      * cbn in E. subst n'. congruence.
      * congruence.
  - injection Eb as <-. apply hnumber_num in Ea. contradiction.
  - injection Ea as <-. apply hnumber_num in Eb. contradiction.
  - injection Ea as <-. apply hnumber_num in Eb. contradiction.
  - injection Ea as <-. injection Eb as ->. congruence.
Qed.

Definition named (x : obj) (o : jsobj val) : Prop := x = OObject o \/ x = OArray o.
Lemma object_snoc x ps k v o : named x o -> put_all cfg (empty_of x) (ps ++ [(k, v)]) = Ok x ->
  exists x0 o0 p, named x0 o0 /\ empty_of x0 = empty_of x /\ put_all cfg (empty_of x) ps = Ok x0 /\ property cfg k p /\ jo_set o0 p (elem_of v) = (Ok tt, o).
Proof.
  intros Nx. rewrite put_all_snoc. destruct (put_all cfg (empty_of x) ps) as [x0|e]; cbn [bind]; [|discriminate]. intros E.
  pose proof (put_kind _ _ _ _ _ E) as Kd. unfold named in *.
  assert (J : forall o0, jo_put (c_float_repr cfg) o0 k v = Ok o -> exists p, property cfg k p /\ jo_set o0 p (elem_of v) = (Ok tt, o)).
  { intros o0. unfold jo_put. destruct (val_key k) as [y|] eqn:Ek; [|discriminate]. destruct (norm y) as [p|] eqn:En; cbn [bind]; [|discriminate].
    destruct (jo_set o0 p (elem_of v)) as [[[]|] o1] eqn:Es; [|discriminate]. intros [= ->]. exists p. split; auto. apply property_val. eauto. }
  destruct Nx as [->| ->]; destruct x0; try contradiction; cbn [put] in E.
  - destruct (jo_put _ o0 k v) as [o1|] eqn:Ep; cbn in E; [|discriminate]. injection E as ->. destruct (J _ Ep) as (p & Pk & Es).
    exists (OObject o0), o0, p. auto.
  - destruct (jo_put _ o0 k v) as [o1|] eqn:Ep; cbn in E; [|discriminate]. injection E as ->. destruct (J _ Ep) as (p & Pk & Es).
    exists (OArray o0), o0, p. auto.
Qed.
Lemma object_rep ps : forall x o, named x o -> put_all cfg (empty_of x) ps = Ok x ->
  exists qs, Forall2 (fun a b => property cfg (fst a) (fst b) /\ elem_of (snd a) = snd b) ps qs /\ rep o (assign_all [] qs).
Proof.
  induction ps as [|[k v] ps IH] using rev_ind; intros x o Nx E.
  - exists []. split; [constructor|]. cbn in E. destruct Nx as [->| ->]; injection E as <-; apply rep_empty.
  - destruct (object_snoc _ _ _ _ _ Nx E) as (x0 & o0 & p & N0 & Em & E0 & Pk & Es). rewrite <- Em in E0.
    destruct (IH _ _ N0 E0) as (qs & F & R). exists (qs ++ [(p, elem_of v)]). split; [apply Forall2_app; auto|].
    assert (A : forall l q (w : option val) (m : list (pkey * val)), assign_all m (l ++ [(q, w)]) = assign (assign_all m l) q w).
    { induction l as [|[q0 w0] l IHl]; intros q w m; cbn; auto. }
    rewrite A. apply property_val in Pk as (y & _ & Ny). destruct (rep_set _ _ p (elem_of v) R (ObjectFacts.norm_pok _ _ _ Ny)) as (r & o' & E1 & R' & _).
    rewrite Es in E1. injection E1 as <- <-. exact R'.
Qed.
Lemma assign_all_keys qs : forall m : list (pkey * val), NoDup (dkeys m) -> NoDup (dkeys (assign_all m qs)).
Proof. induction qs as [|[p v] qs IH]; intros m N; cbn; auto. apply IH. apply assign_keys. auto. Qed.
Lemma assign_all_get qs : forall (m : list (pkey * val)) p, NoDup (dkeys m) ->
  (exists a v b, qs = a ++ (p, v) :: b /\ Forall (fun q => fst q <> p) b /\ dget pkey_eqb p (assign_all m qs) = v) \/
  (Forall (fun q => fst q <> p) qs /\ dget pkey_eqb p (assign_all m qs) = dget pkey_eqb p m).
Proof.
  induction qs as [|[q w] qs IH]; intros m p N; cbn [assign_all]; [right; split; auto|].
  destruct (IH (assign m q w) p (assign_keys _ _ _ N)) as [(a & v & b & -> & F & G)|[F G]].
  - left. exists ((q, w) :: a), v, b. auto.
  - rewrite assign_get in G by auto. destruct (pkey_eqb p q) eqn:E.
    + apply pkey_eqb_spec in E. subst q. left. exists [], w, qs. auto.
    + right. split; auto. constructor; auto. cbn. intros ->. rewrite (proj2 (pkey_eqb_spec p p) eq_refl) in E. discriminate.
Qed.
Lemma Forall2_split_r {A B} (P : A -> B -> Prop) l a y b : Forall2 P l (a ++ y :: b) -> exists a' x b', l = a' ++ x :: b' /\ P x y /\ Forall2 P b' b.
Proof.
  intros F. apply Forall2_app_inv_r in F as (a' & r & Fa & Fr & ->). inversion Fr; subst. eauto 6.
Qed.
Lemma Forall2_split_l {A B} (P : A -> B -> Prop) l a y b : Forall2 P (a ++ y :: b) l -> exists a' x b', l = a' ++ x :: b' /\ P y x /\ Forall2 P b b'.
Proof.
  intros F. apply Forall2_app_inv_l in F as (a' & r & Fa & Fr & ->). inversion Fr; subst. eauto 6.
Qed.
Lemma Forall2_in_l {A B} (P : A -> B -> Prop) l l' : Forall2 P l l' -> forall x, In x l -> exists y, In y l' /\ P x y.
Proof. induction 1; intros z []; [subst; cbn; eauto|]. destruct (IHForall2 _ H1) as (w & J & Q). cbn. eauto. Qed.
Lemma Forall2_in_r {A B} (P : A -> B -> Prop) l l' : Forall2 P l l' -> forall y, In y l' -> exists x, In x l /\ P x y.
Proof. induction 1; intros z []; [subst; cbn; eauto|]. destruct (IHForall2 _ H1) as (w & J & Q). cbn. eauto. Qed.
Section Heap.
Variable h : heap.
Hypothesis Good : Forall (good_cell h) h.
Lemma object_as_properties ps x o : named x o -> Forall (fun p => valid h (fst p) /\ hashable h (fst p) = true) ps -> put_all cfg (empty_of x) ps = Ok x ->
  as_properties cfg h o (pyd (dkey h) ps).
Proof.
  intros Nx F E. destruct (object_rep _ _ _ Nx E) as (qs & Q & R).
  assert (Fd : forall k v, In (k, v) (pyd (dkey h) ps) -> valid h k /\ exists p, property cfg k p).
  { intros k v J. apply (in_map fst), pyd_keys in J. apply in_map_iff in J as ([k' v'] & Ek & J). cbn in Ek. subst k'.
    rewrite Forall_forall in F. split; [apply (F _ J)|]. destruct (Forall2_in_l _ _ _ Q _ J) as ([p w] & _ & P & _). eauto. }
  assert (Like : forall a b p, like (dkey h) a b -> property cfg a p -> (exists q, property cfg b q) -> property cfg b p).
  { intros a b p [->|Sk] Pa [q Pb]; auto. rewrite (dkey_property h a b p q Sk Pa Pb). auto. }
  split.
  - intros k v J. apply (Fd _ _ J).
  - intros p v G. rewrite (rep_get _ _ p R) in G. destruct (dget pkey_eqb p (assign_all [] qs)) as [w|] eqn:Eg; [|discriminate]. injection G as ->.
    destruct (assign_all_get qs [] p (NoDup_nil _)) as [(a & w & b & -> & Fb & G)|[_ G]]; [|rewrite G in Eg; discriminate].
    rewrite Eg in G. subst w. apply Forall2_split_r in Q as (a' & [k v'] & b' & -> & [Pk Ev] & Qb). cbn in Pk, Ev.
    assert (v' = v) as -> by (destruct v'; try discriminate Ev; injection Ev as <-; reflexivity).
    destruct (pyd_last (dkey h) a' k v b') as (k0 & J & Lk).
    { apply Forall_forall. intros [k' v'] J. cbn. destruct (same_dkey (dkey h) k' k) eqn:Sk; auto.
      destruct (Forall2_in_l _ _ _ Qb _ J) as ([q w] & Jq & P & _). cbn in P. rewrite Forall_forall in Fb. exfalso. apply (Fb _ Jq). cbn.
      eapply dkey_property; eauto. }
    exists k0. split; auto. apply (Like k k0 p); auto; [apply like_sym; auto|]. apply (Fd _ _ J).
  - intros i j [ka va] [kb vb] Ei Ej Ne O. pose proof (pyd_apart (dkey h) ps _ _ _ _ Ei Ej Ne) as Ap. cbn in *.
    apply nth_error_In in Ei. apply nth_error_In in Ej. apply dkey_one in O; [congruence|auto|apply (Fd _ _ Ei)|apply (Fd _ _ Ej)].
  - intros Df k v p J Pk. rewrite (rep_get _ _ p R). pose proof J as J0. apply In_nth_error in J as [i Ei].
    destruct (pyd_in _ _ _ _ _ Ei) as (a & k1 & b & Ep & Lk & Bs).
    assert (Qs := Q). rewrite Ep in Qs. apply Forall2_split_l in Qs as (a' & [p1 w] & b' & -> & [P1 Ew] & Qb). cbn in P1, Ew.
    assert (p1 = p) as ->.
    { eapply property_one; [exact P1|]. apply (Like k k1 p); auto; [apply like_sym; auto|]. eauto. }
    assert (Nb : Forall (fun q => fst q <> p) b').
    { apply Forall_forall. intros [q w'] Jq Eq. cbn in Eq. subst q. destruct (Forall2_in_r _ _ _ Qb _ Jq) as ([k' v'] & J' & Pk' & _). cbn in Pk'.
      destruct (Bs _ _ J') as (j & k2 & v2 & Nj & Ej & L2). refine (Df i j (k, v) (k2, v2) Ei Ej (fun X => Nj (eq_sym X)) _). exists p. cbn. split; auto.
      apply (Like k' k2 p); auto; [apply like_sym; auto|]. apply nth_error_In in Ej. apply (Fd _ _ Ej). }
    subst w.
    destruct (assign_all_get (a' ++ (p, elem_of v) :: b') [] p (NoDup_nil _)) as [(a2 & w2 & b2 & Eq & Fb & G)|[Fn _]].
    + rewrite G. assert (w2 = elem_of v) as ->; [|destruct v; reflexivity].
      clear - Eq Nb Fb. revert a2 Eq. induction a' as [|y a' IH]; intros [|y2 a2] Eq; cbn in Eq; injection Eq as E1 E2.
      * congruence.
      * subst b'. exfalso. apply Forall_app in Nb as [_ Nb]. inversion Nb; subst. cbn in *. congruence.
      * subst b2. exfalso. apply Forall_app in Fb as [_ Fb]. inversion Fb; subst. cbn in *. congruence.
      * eapply IH; eauto.
    + exfalso. apply Forall_app in Fn as [_ Fn]. inversion Fn; subst. cbn in *. congruence.
Qed.
End Heap.
End Objects.
