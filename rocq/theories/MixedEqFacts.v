(** JSMap and JSSet against dict and set, for C72. *)
From Coq Require Import List NArith ZArith Bool Arith Lia Permutation.
From Verif Require Import Base Dict ModelTags ModelArray ModelValue ModelObject ModelMap ModelHeap ModelEq SpecMixedEq ModelMixedEq.
Import ListNotations.
Open Scope nat_scope.

Section Facts.
Context {K : Type}.
Variable keqb : K -> K -> bool.
Hypothesis keqb_spec : forall a b, keqb a b = true <-> a = b.
Variable H : heap.
Variable dict_key : val -> option K.
Variable op : nat -> nat -> bool.
Notation same := (same H op).

Lemma decide_mask leaf v w f : decide op (mask H leaf v w f) = decide op (f (equal_to H op leaf v w)).
Proof. unfold mask, equal_to. destruct v; auto. destruct w; auto. destruct (followed H oid oid0); auto. Qed.
Lemma decide_mall leaf l k : decide op (mall H leaf l k) =
  if forallb (fun p => equal_to H op leaf (fst p) (snd p)) l then decide op k else Some No.
Proof.
  induction l as [|[v w] l IH]; cbn [mall forallb fst snd]; auto. rewrite decide_mask.
  destruct (equal_to H op leaf v w); cbn [andb]; auto.
Qed.
Lemma forallb_flat leaf l : forall m, length l = length m ->
  (forallb (fun p => equal_to H op leaf (fst p) (snd p)) (flat_pairs (combine l m)) = true <->
   Forall2 (fun p q => same leaf (fst p) (fst q) /\ same leaf (snd p) (snd q)) l m).
Proof.
  induction l as [|[k v] l IH]; intros [|[k' v'] m] L; try discriminate; cbn [combine flat_pairs forallb fst snd]; [split; auto|].
  injection L as L. rewrite !andb_true_iff, (IH m L). unfold SpecMixedEq.same. split.
  - intros [A [B C]]. constructor; auto.
  - intros F. inversion F; subst. cbn [fst snd] in *. tauto.
Qed.
Lemma forallb_combine leaf l : forall m, length l = length m ->
  (forallb (fun p => equal_to H op leaf (fst p) (snd p)) (combine l m) = true <-> Forall2 (same leaf) l m).
Proof.
  induction l as [|v l IH]; intros [|w m] L; try discriminate; cbn [combine forallb fst snd]; [split; auto|].
  injection L as L. rewrite !andb_true_iff, (IH m L). unfold SpecMixedEq.same. split.
  - intros [A B]. constructor; auto.
  - intros F. inversion F; subst. tauto.
Qed.
Lemma Forall2_length' {A B} (P : A -> B -> Prop) l m : Forall2 P l m -> length l = length m.
Proof. induction 1; cbn; auto. Qed.

(** * dict(pairs) *)
Notation dict_of := (dict_of keqb dict_key).
Lemma dset_len {V} x (v : V) d : length (dset keqb x v d) = if dmem keqb x d then length d else S (length d).
Proof.
  unfold dmem. induction d as [|[y w] d IH]; cbn; auto. destruct (keqb x y); cbn; auto. rewrite IH. destruct (dget keqb x d); auto.
Qed.
Lemma dset_fresh {V} x (v : V) d : dmem keqb x d = false -> dset keqb x v d = d ++ [(x, v)].
Proof.
  unfold dmem. induction d as [|[y w] d IH]; cbn; auto. destruct (keqb x y); [discriminate|]. intros E. rewrite IH; auto.
Qed.
Lemma dict_of_none ms : forall d, dict_of d ms = None <-> exists k v, In (k, v) ms /\ dict_key k = None.
Proof.
  induction ms as [|[k v] ms IH]; intros d; cbn [ModelMixedEq.dict_of].
  - split; [discriminate|]. intros [k [v [[] _]]].
  - destruct (dict_key k) as [x|] eqn:E.
    + rewrite IH. split; intros [k' [v' [I N]]]; exists k', v'; split; auto; [right; auto|]. destruct I as [I|I]; auto. congruence.
    + split; auto. intros _. exists k, v. split; auto. left; auto.
Qed.
Lemma dict_of_some ms : forall d d', dict_of d ms = Some d' -> length d' <= length d + length ms /\
  (length d' = length d + length ms -> (exists ks, map (fun p => dict_key (fst p)) ms = map Some ks /\
     (forall x, In x ks -> dmem keqb x d = false) /\ NoDup ks /\ d' = d ++ combine ks (map snd ms))).
Proof.
  induction ms as [|[k v] ms IH]; intros d d'; cbn [ModelMixedEq.dict_of map fst snd].
  - intros [= <-]. split; [cbn; lia|]. intros _. exists []. cbn. repeat split; auto; [intros x []|constructor|rewrite app_nil_r; auto].
  - destruct (dict_key k) as [x|] eqn:E; [|discriminate]. intros D. destruct (IH _ _ D) as [L F]. rewrite dset_len in L, F.
    cbn [length]. destruct (dmem keqb x d) eqn:M; [split; lia|]. split; [lia|]. intros LL. destruct F as [ks [E1 [F1 [F2 F3]]]]; [lia|].
    exists (x :: ks). rewrite E1. repeat split; auto.
    + intros y [<-|I]; auto. specialize (F1 y I). rewrite (dset_fresh _ _ _ M) in F1. unfold dmem in *. revert F1. clear. induction d as [|[a b] d IH]; cbn; auto.
      destruct (keqb y a); auto. 
    + constructor; auto. intros I. specialize (F1 x I). rewrite (dset_fresh _ _ _ M) in F1. unfold dmem in F1. revert F1. clear -keqb_spec. 
      induction d as [|[a b] d IH]; cbn; auto; [rewrite (proj2 (keqb_spec x x) eq_refl); discriminate|]. destruct (keqb x a); auto. discriminate.
    + rewrite F3, (dset_fresh _ _ _ M), <- app_assoc. reflexivity.
Qed.
Lemma dict_of_nodup ms ks : forall d d', map (fun p => dict_key (fst p)) ms = map Some ks -> NoDup ks -> (forall x, In x ks -> dmem keqb x d = false) ->
  dict_of d ms = Some d' -> d' = d ++ combine ks (map snd ms).
Proof.
  revert ks. induction ms as [|[k v] ms IH]; intros [|x ks] d d'; cbn [map fst snd ModelMixedEq.dict_of]; try discriminate.
  - intros _ _ _ [= <-]. cbn. rewrite app_nil_r. auto.
  - intros [= E1 E2] ND F. rewrite E1. inversion ND; subst. rewrite (dset_fresh x v d) by (apply F; left; auto). intros D.
    match goal with N : NoDup ks |- _ => rename N into NK end.
    match goal with N : ~ In x ks |- _ => rename N into NX end.
    rewrite (IH ks (d ++ [(x, v)]) d' E2 NK); [rewrite <- app_assoc; reflexivity| |exact D].
    intros y I. assert (keqb y x = false) as NE. { destruct (keqb y x) eqn:Q; auto. apply keqb_spec in Q. congruence. }
    specialize (F y (or_intror I)). unfold dmem in *. revert F. clear -NE. induction d as [|[a b] d IH]; cbn; [rewrite NE; auto|]. destruct (keqb y a); auto.
Qed.

(** * Looking a key up in a dict *)
Notation find := (dict_find keqb dict_key).
Definition keys (l : list (val * val)) : list (option K) := map (fun p => dict_key (fst p)) l.
Lemma find_in x l w : find x l = Some w -> exists k, In (k, w) l /\ dict_key k = Some x.
Proof.
  induction l as [|[k u] l IH]; cbn; [discriminate|]. destruct (dict_key k) as [y|] eqn:E.
  - destruct (keqb x y) eqn:Q; [apply keqb_spec in Q as ->; intros [= <-]; eauto|]. intros F. destruct (IH F) as [k' [I J]]. eauto.
  - intros F. destruct (IH F) as [k' [I J]]. eauto.
Qed.
Lemma find_nodup x l k w : NoDup (keys l) -> In (k, w) l -> dict_key k = Some x -> find x l = Some w.
Proof.
  unfold keys. induction l as [|[k' u] l IH]; cbn; [intros _ []|]. intros ND. inversion ND as [|? ? N1 N2]; subst. intros [E|I] D.
  - injection E as -> ->. rewrite D, (proj2 (keqb_spec x x) eq_refl). auto.
  - assert (match dict_key k' with Some y => keqb x y | None => false end = false) as ->; [|auto].
    destruct (dict_key k') as [y|] eqn:E; auto. destruct (keqb x y) eqn:Q; auto. apply keqb_spec in Q as ->. exfalso. apply N1.
    apply in_map_iff. exists (k, w). auto.
Qed.
Lemma decide_mdict leaf d l : decide op (mdict keqb H dict_key leaf d l) =
  Some (if forallb (fun p => match find (fst p) l with Some w => equal_to H op leaf (snd p) w | None => false end) d then Yes else No).
Proof.
  induction d as [|[x v] d IH]; cbn [mdict forallb fst snd]; auto. destruct (find x l) as [w|]; auto. rewrite decide_mask.
  destruct (equal_to H op leaf v w); cbn [andb]; auto.
Qed.

Definition matches leaf (p q : val * val) : Prop := dict_key (fst p) = dict_key (fst q) /\ same leaf (snd p) (snd q).
Lemma matches_keys leaf l m : Forall2 (matches leaf) l m -> keys l = keys m.
Proof. unfold keys. induction 1 as [|p q l m [A _] F IH]; cbn; f_equal; auto. Qed.
Lemma some_inj {A} (l m : list A) : map Some l = map Some m -> l = m.
Proof. revert m. induction l as [|a l IH]; intros [|b m] E; cbn in *; try discriminate; auto. injection E as -> E. f_equal; auto. Qed.
Lemma hashable_keys ms : (forall k v, In (k, v) ms -> dict_key k <> None) -> exists ks, keys ms = map Some ks.
Proof.
  induction ms as [|[k v] ms IH]; intros A; [exists []; auto|]. destruct IH as [ks E]. { intros k' v' I. apply (A k' v'). right; auto. }
  pose proof (A k v (or_introl eq_refl)) as N. destruct (dict_key k) as [x|] eqn:D; [|contradiction]. exists (x :: ks). unfold keys in *. cbn. rewrite D, E. auto.
Qed.
Lemma NoDup_some {A} (l : list A) : NoDup (map Some l) <-> NoDup l.
Proof.
  split; [apply NoDup_map_inv|]. intros N. apply FinFun.Injective_map_NoDup; auto. intros a b [= ->]. auto.
Qed.

Theorem map_vs_dict_hashable leaf_same ms l :
  (forall k v, In (k, v) ms -> dict_key k <> None) -> NoDup (keys l) ->
  exists z : bool, decide op (map_vs_dict keqb H dict_key leaf_same ms l) = Some (if z then Yes else No) /\
    (z = true <-> exists l', Permutation l l' /\ Forall2 (matches leaf_same) ms l').
Proof.
  intros HK ND. unfold map_vs_dict. destruct (length ms =? length l) eqn:L; cbn [negb].
  2: { apply Nat.eqb_neq in L. exists false. split; auto. split; [discriminate|]. intros [l' [P F]]. apply Permutation_length in P. apply Forall2_length' in F. congruence. }
  apply Nat.eqb_eq in L. destruct (hashable_keys ms HK) as [ks KS].
  destruct (dict_of [] ms) as [d|] eqn:D.
  2: { apply dict_of_none in D as [k [v [I N]]]. exfalso. exact (HK k v I N). }
  destruct (length d =? length l) eqn:LD; cbn [negb].
  2: { apply Nat.eqb_neq in LD. exists false. split; auto. split; [discriminate|]. intros [l' [P F]]. exfalso. apply LD.
       assert (NoDup ks). { apply NoDup_some. rewrite <- KS, (matches_keys _ _ _ F). unfold keys in *. eapply Permutation_NoDup; [|exact ND]. apply Permutation_map. auto. }
       assert (d = [] ++ combine ks (map snd ms)) as ->. { apply dict_of_nodup; auto. }
       cbn [app]. rewrite combine_length, map_length. assert (length ks = length ms). { rewrite <- (map_length (fun p => dict_key (fst p)) ms). unfold keys in KS. rewrite KS, map_length. auto. } lia. }
  apply Nat.eqb_eq in LD. destruct (dict_of_some _ _ _ D) as [_ F]. destruct F as [ks' [E1 [_ [NK E2]]]]; [cbn; lia|].
  unfold keys in KS. rewrite KS in E1. apply some_inj in E1. subst ks'. cbn [app] in E2. subst d.
  rewrite decide_mdict. eexists. split; [reflexivity|]. rewrite forallb_forall. split.
  - intros F. set (pick := fun p : val * val => match dict_key (fst p) with Some x => match find x l with Some w =>
        match List.find (fun q => match dict_key (fst q) with Some y => keqb x y | None => false end) l with Some q => q | None => p end | None => p end | None => p end).
    assert (PK : forall p, In p ms -> In (pick p) l /\ matches leaf_same p (pick p)).
    { intros [k v] I. pose proof (HK k v I) as N. unfold pick, matches. cbn [fst snd]. destruct (dict_key k) as [x|] eqn:DK; [|contradiction].
      assert (In (x, v) (combine ks (map snd ms))) as IC.
      { revert KS I DK. clear. revert ks. induction ms as [|[k' v'] ms IH]; intros [|y ks] KS I DK; try discriminate; cbn in *; try contradiction. destruct I as [E|I].
        - injection E as -> ->. injection KS as KS _. left. congruence.
        - injection KS as _ KS. right. eapply IH; eauto. }
      specialize (F _ IC). cbn [fst snd] in F. destruct (find x l) as [w|] eqn:FX; [|discriminate].
      destruct (List.find _ l) as [[k' w']|] eqn:FD.
      - apply find_some in FD as [I' Q]. cbn [fst] in Q. destruct (dict_key k') as [y|] eqn:DK'; [|discriminate]. apply keqb_spec in Q as <-.
        rewrite (find_nodup x l k' w' ND I' DK') in FX. injection FX as ->. cbn [fst snd]. auto.
      - exfalso. destruct (find_in _ _ _ FX) as [k' [I' DK']]. pose proof (find_none _ _ FD _ I') as Q. cbn [fst] in Q. rewrite DK', (proj2 (keqb_spec x x) eq_refl) in Q. discriminate. }
    exists (map pick ms). assert (Forall2 (matches leaf_same) ms (map pick ms)) as FM.
    { clear - PK. induction ms as [|p ms IH]; constructor; [apply PK; left; auto|]. apply IH. intros q I. apply PK. right; auto. }
    split; auto. symmetry. apply NoDup_Permutation_bis.
    + apply (NoDup_map_inv (fun p => dict_key (fst p))). fold (keys (map pick ms)). rewrite <- (matches_keys _ _ _ FM). unfold keys. rewrite KS. apply NoDup_some. auto.
    + rewrite map_length. lia.
    + intros q I. apply in_map_iff in I as [p [<- I]]. apply PK. auto.
  - intros [l' [P F]] [x v] IC. cbn [fst snd].
    assert (exists k, In (k, v) ms /\ dict_key k = Some x) as [k [I DK]].
    { revert KS IC. clear. revert ks. induction ms as [|[k' v'] ms IH]; intros [|y ks] KS IC; try discriminate; cbn in *; try contradiction.
      injection KS as K1 K2. destruct IC as [E|IC]; [injection E as -> ->; eauto|]. destruct (IH _ K2 IC) as [k [I D]]. eauto. }
    assert (exists q, In q l' /\ matches leaf_same (k, v) q) as [[k' w] [I' [M1 M2]]].
    { revert I. clear - F. induction F as [|p q ms l M F IH]; [intros []|]. intros [->|I]; [exists q; split; [left|]; auto|]. destruct (IH I) as [r [R1 R2]]. exists r. split; [right|]; auto. }
    cbn [fst snd] in *. rewrite (find_nodup x l k' w ND); [exact M2| |congruence]. eapply Permutation_in; [symmetry; exact P|exact I'].
Qed.
Theorem map_vs_dict_unhashable leaf_same ms l k v : In (k, v) ms -> dict_key k = None ->
  exists z : bool, decide op (map_vs_dict keqb H dict_key leaf_same ms l) = Some (if z then Yes else No) /\
    (z = true <-> Forall2 (fun p q => same leaf_same (fst p) (fst q) /\ same leaf_same (snd p) (snd q)) ms l).
Proof.
  intros I N. unfold map_vs_dict. destruct (length ms =? length l) eqn:L; cbn [negb].
  2: { apply Nat.eqb_neq in L. exists false. split; auto. split; [discriminate|]. intros F. apply Forall2_length' in F. congruence. }
  apply Nat.eqb_eq in L. assert (dict_of [] ms = None) as ->. { apply dict_of_none. eauto. }
  rewrite decide_mall. eexists. split; [|apply forallb_flat; exact L]. destruct (forallb _ _); reflexivity.
Qed.

(** * set(members) *)
Notation set_of := (set_of keqb dict_key).
Lemma set_of_none ms : forall s, set_of s ms = None <-> exists v, In v ms /\ dict_key v = None.
Proof.
  induction ms as [|v ms IH]; intros s; cbn [ModelMixedEq.set_of].
  - split; [discriminate|]. intros [v [[] _]].
  - destruct (dict_key v) as [x|] eqn:E.
    + rewrite IH. split; intros [w [I N]]; exists w; split; auto; [right; auto|]. destruct I as [I|I]; auto. congruence.
    + split; auto. intros _. exists v. split; auto. left; auto.
Qed.
Lemma existsb_key x s : existsb (keqb x) s = true <-> In x s.
Proof.
  rewrite existsb_exists. split; [intros [y [I Q]]; apply keqb_spec in Q as ->; auto|]. intros I. exists x. split; auto. apply keqb_spec. auto.
Qed.
Lemma set_of_some ms : forall s s', set_of s ms = Some s' -> NoDup s -> exists ks, map dict_key ms = map Some ks /\ NoDup s' /\
  (forall x, In x s' <-> In x s \/ In x ks) /\ (NoDup (s ++ ks) -> length s' = length s + length ks).
Proof.
  induction ms as [|v ms IH]; intros s s'; cbn [ModelMixedEq.set_of map].
  - intros [= <-] ND. exists []. cbn. repeat split; auto; try tauto.
  - destruct (dict_key v) as [x|] eqn:E; [|discriminate]. intros D ND. destruct (existsb (keqb x) s) eqn:Q.
    + apply existsb_key in Q. destruct (IH _ _ D ND) as [ks [E1 [N1 [I1 L1]]]]. exists (x :: ks). rewrite E1. repeat split; auto.
      * intros A. apply I1 in A. cbn. tauto.
      * intros A. apply I1. cbn in A. destruct A as [A|[<-|A]]; auto.
      * intros A. exfalso. apply NoDup_remove_2 in A. apply A. apply in_or_app. auto.
    + assert (~ In x s) as NI. { intros A. apply existsb_key in A. congruence. }
      assert (NoDup (s ++ [x])) as N2. { apply (Permutation_NoDup (l := x :: s)); [apply Permutation_cons_append|constructor; auto]. }
      destruct (IH _ _ D N2) as [ks [E1 [N1 [I1 L1]]]]. exists (x :: ks). rewrite E1. repeat split; auto.
      * intros A. apply I1 in A. rewrite in_app_iff in A. cbn in *. tauto.
      * intros A. apply I1. rewrite in_app_iff. cbn in *. tauto.
      * intros A. rewrite L1; [rewrite app_length; cbn; lia|]. rewrite <- app_assoc. exact A.
Qed.
Theorem set_vs_set_hashable leaf_eq ms l : (forall v, In v ms -> dict_key v <> None) -> NoDup (map dict_key l) ->
  exists z : bool, decide op (set_vs_set keqb H dict_key leaf_eq ms l) = Some (if z then Yes else No) /\
    (z = true <-> exists l', Permutation l l' /\ map dict_key ms = map dict_key l').
Proof.
  intros HK ND. unfold set_vs_set. destruct (length ms =? length l) eqn:L; cbn [negb].
  2: { apply Nat.eqb_neq in L. exists false. split; auto. split; [discriminate|]. intros [l' [P F]]. apply Permutation_length in P. apply (f_equal (@length _)) in F. rewrite !map_length in F. congruence. }
  apply Nat.eqb_eq in L. destruct (set_of [] ms) as [s|] eqn:D.
  2: { apply set_of_none in D as [v [I N]]. exfalso. exact (HK v I N). }
  destruct (set_of_some _ _ _ D (NoDup_nil _)) as [ks [KS [NS [IS LS]]]]. cbn [app length] in LS.
  assert (LK : length ks = length ms). { rewrite <- (map_length dict_key ms), KS, map_length. auto. }
  eexists. split; [reflexivity|]. rewrite andb_true_iff, Nat.eqb_eq, forallb_forall. split.
  - intros [LL F]. assert (P : Permutation (map dict_key ms) (map dict_key l)).
    { rewrite KS. assert (PS : Permutation (map Some s) (map dict_key l)).
      { apply NoDup_Permutation_bis; [apply NoDup_some; auto|rewrite !map_length; lia|]. intros y I. apply in_map_iff in I as [x [<- I]]. specialize (F x I).
        apply existsb_exists in F as [w [Iw Q]]. destruct (dict_key w) as [y|] eqn:DK; [|discriminate]. apply keqb_spec in Q as <-. rewrite <- DK. apply in_map. auto. }
      assert (NoDup ks) as NK.
      { eapply NoDup_incl_NoDup; [exact NS|lia|]. intros x I. apply IS in I as [[]|I]. auto. }
      rewrite <- PS. apply Permutation_map. apply NoDup_Permutation; auto. intros x. rewrite IS. cbn. tauto. }
    apply Permutation_map_inv in P as [l' [E P]]. exists l'. auto.
  - intros [l' [P E]]. assert (NoDup ks) as NK. { apply NoDup_some. rewrite <- KS, E. eapply Permutation_NoDup; [|exact ND]. apply Permutation_map. auto. }
    split; [rewrite (LS NK); lia|]. intros x I. apply IS in I as [[]|I]. apply existsb_exists.
    assert (In (Some x) (map dict_key l)) as Q. { apply (Permutation_in (l := map dict_key l')); [apply Permutation_map; symmetry; auto|]. rewrite <- E, KS. apply in_map. auto. }
    apply in_map_iff in Q as [w [E2 Iw]]. exists w. rewrite E2. split; auto. apply keqb_spec. auto.
Qed.
Theorem set_vs_set_unhashable leaf_eq ms l v : In v ms -> dict_key v = None ->
  exists z : bool, decide op (set_vs_set keqb H dict_key leaf_eq ms l) = Some (if z then Yes else No) /\
    (z = true <-> Forall2 (same leaf_eq) ms l).
Proof.
  intros I N. unfold set_vs_set. destruct (length ms =? length l) eqn:L; cbn [negb].
  2: { apply Nat.eqb_neq in L. exists false. split; auto. split; [discriminate|]. intros F. apply Forall2_length' in F. congruence. }
  apply Nat.eqb_eq in L. assert (set_of [] ms = None) as ->. { apply set_of_none. eauto. }
  rewrite decide_mall. eexists. split; [|apply forallb_combine; exact L]. destruct (forallb _ _); reflexivity.
Qed.
End Facts.
