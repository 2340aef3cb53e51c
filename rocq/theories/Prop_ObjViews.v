(** C87: keys() and items() of JSObject and JSArray are sets of property names. *)
From Coq Require Import List NArith ZArith Bool Lia.
From Verif Require Import Base Dict SpecNumber SpecKey ValueFacts KeyFacts SpecArray ModelArray ModelValue SpecObject ModelObject ArrayFacts ObjectFacts Prop_Key ModelViewEq ModelObjViews.
Import ListNotations.
Open Scope Z_scope.

(** * Specification *)
Section Spec.
Context {T : Type}.
Variable float_repr : N -> list N.
(** An object made by any sequence of the operations of C33 *)
Definition made_obj (o : jsobj T) : Prop := exists ops tr, jo_ops float_repr jo_empty ops = (tr, o).
(** [v] is the value of the property [p] *)
Definition property (o : jsobj T) (p : pkey) (v : T) : Prop := jo_get o p = Ok v.
Definition property_name (o : jsobj T) (p : pkey) : Prop := exists v, property o p v.
End Spec.
(** repr of a float that is no integer is not all digits *)
Definition plain_repr (float_repr : N -> list N) : Prop :=
  forall bits m e, ieee bits = Finite m e -> (forall z, ~ same_number (ieee bits) (Finite z 0)) -> ~ digits (float_repr bits).
(** The names in a set of normalised keys, each once *)
Definition exactly (r : list key) (P : pkey -> Prop) : Prop := NoDup r /\ (forall p, In (key_of p) r <-> P p) /\ forall k, In k r -> exists p, k = key_of p.

(** * Proofs *)
Lemma key_of_inj p q : key_of p = key_of q -> p = q.
Proof. destruct p, q; cbn; congruence. Qed.
Lemma key_eqb_of p q : key_eqb (key_of p) (key_of q) = true <-> p = q.
Proof.
  destruct p as [s|y], q as [t|z]; cbn [key_of key_eqb key_number]; try (split; discriminate).
  - rewrite listN_eqb_spec. split; congruence.
  - rewrite Z.eqb_eq. split; congruence.
Qed.
Lemma in_set_of l p : in_set (map key_of l) (key_of p) = true <-> In p l.
Proof.
  unfold in_set. rewrite existsb_exists. split.
  - intros [x [I E]]. apply in_map_iff in I as [q [<- I]]. apply key_eqb_of in E. subst. exact I.
  - intros I. exists (key_of p). split; [apply in_map, I|apply key_eqb_of; reflexivity].
Qed.
Lemma set_of_names l : exists r, set_of (map key_of l) = map key_of r /\ NoDup r /\ forall p, In p r <-> In p l.
Proof.
  unfold set_of. enough (forall l s, NoDup s -> exists r, fold_left (fun s k => if in_set s k then s else s ++ [k]) (map key_of l) (map key_of s) = map key_of r /\
    NoDup r /\ forall p, In p r <-> In p s \/ In p l) as X.
  { destruct (X l [] (NoDup_nil _)) as [r [E [N Q]]]. exists r. split; [exact E|]. split; [exact N|]. intros p. rewrite Q. cbn. tauto. }
  clear l. induction l as [|x l IH]; intros s N; cbn [map fold_left].
  - exists s. split; [reflexivity|]. split; [exact N|]. intros p. cbn. tauto.
  - destruct (in_set (map key_of s) (key_of x)) eqn:E.
    + apply in_set_of in E. destruct (IH s N) as [r [R [NR Q]]]. exists r. split; [exact R|]. split; [exact NR|]. intros p. rewrite Q. cbn. intuition (subst; auto).
    + assert (~ In x s) as NI by (intros I; apply in_set_of in I; congruence).
      destruct (IH (s ++ [x]) (NoDup_snoc s x N NI)) as [r [R [NR Q]]]. exists r. rewrite map_app in R. cbn [map] in R. split; [exact R|].
      split; [exact NR|]. intros p. rewrite Q, in_app_iff. cbn. intuition.
Qed.
Lemma exactly_set_of l P : (forall p, In p l <-> P p) -> exactly (set_of (map key_of l)) P.
Proof.
  intros Q. destruct (set_of_names l) as [r [-> [N R]]]. split; [|split].
  - apply FinFun.Injective_map_NoDup; [intros x y; apply key_of_inj|exact N].
  - intros p. rewrite <- Q, <- R. split; [|apply in_map]. intros I. apply in_map_iff in I as [q [E I]]. apply key_of_inj in E. subst. exact I.
  - intros k I. apply in_map_iff in I as [q [<- _]]. eauto.
Qed.
Lemma exactly_names r P : exactly r P -> exists l, r = map key_of l /\ forall p, In p l <-> P p.
Proof.
  intros [_ [Q F]]. assert (exists l, r = map key_of l) as [l ->].
  { clear Q. induction r as [|k r IH]; [exists []; reflexivity|]. destruct (F k (or_introl eq_refl)) as [p ->].
    destruct IH as [l ->]; [intros k I; apply F; right; exact I|]. exists (p :: l). reflexivity. }
  exists l. split; [reflexivity|]. intros p. rewrite <- Q. split; [apply in_map|]. intros I. apply in_map_iff in I as [q [E I]]. apply key_of_inj in E. subst. exact I.
Qed.

Section Generators.
Context {A : Type} (test : A -> result bool) (P : A -> Prop).
Lemma every_spec l : (forall x, In x l -> exists b, test x = Ok b /\ (b = true <-> P x)) -> exists b, every test l = Ok b /\ (b = true <-> forall x, In x l -> P x).
Proof.
  induction l as [|x l IH]; intros H; cbn [every].
  - exists true. split; [reflexivity|]. split; [intros _ x []|reflexivity].
  - destruct (H x (or_introl eq_refl)) as [b [E B]]. rewrite E. cbn [bind]. destruct b.
    + destruct IH as [c [F C]]; [intros y I; apply H; right; exact I|]. exists c. split; [exact F|]. rewrite C. split.
      * intros X y [<-|I]; [apply B; reflexivity|apply X, I].
      * intros X y I. apply X. right. exact I.
    + exists false. split; [reflexivity|]. split; [discriminate|]. intros X. apply B, X. left. reflexivity.
Qed.
Lemma no_one_spec l : (forall x, In x l -> exists b, test x = Ok b /\ (b = true <-> P x)) -> exists b, no_one test l = Ok b /\ (b = true <-> forall x, In x l -> ~ P x).
Proof.
  induction l as [|x l IH]; intros H; cbn [no_one].
  - exists true. split; [reflexivity|]. split; [intros _ x []|reflexivity].
  - destruct (H x (or_introl eq_refl)) as [b [E B]]. rewrite E. cbn [bind]. destruct b.
    + exists false. split; [reflexivity|]. split; [discriminate|]. intros X. exfalso. apply (X x (or_introl eq_refl)), B. reflexivity.
    + destruct IH as [c [F C]]; [intros y I; apply H; right; exact I|]. exists c. split; [exact F|]. rewrite C. split.
      * intros X y [<-|I]; [intros PX; apply B in PX; discriminate|apply X, I].
      * intros X y I. apply X. right. exact I.
Qed.
Lemma those_spec l : (forall x, In x l -> exists b, test x = Ok b /\ (b = true <-> P x)) -> exists r, those test l = Ok r /\ forall x, In x r <-> In x l /\ P x.
Proof.
  induction l as [|x l IH]; intros H; cbn [those].
  - exists []. split; [reflexivity|]. intros x. cbn. tauto.
  - destruct (H x (or_introl eq_refl)) as [b [E B]]. rewrite E. cbn [bind]. destruct IH as [r [F R]]; [intros y I; apply H; right; exact I|].
    rewrite F. cbn [bind]. eexists. split; [reflexivity|]. intros y. destruct b; cbn [In]; rewrite R.
    + split; [intros [<-|X]; [split; [auto|apply B; reflexivity]|tauto]|tauto].
    + split; [tauto|]. intros [[<-|I] PX]; [apply B in PX; discriminate|auto].
Qed.
End Generators.

Lemma NoDup_app_intro {A} (l m : list A) : NoDup l -> NoDup m -> (forall x, In x l -> ~ In x m) -> NoDup (l ++ m).
Proof.
  induction l as [|x l IH]; intros L M D; cbn [app]; [exact M|]. inversion L as [|? ? N L']; subst. constructor.
  - intros I. apply in_app_or in I as [I|I]; [exact (N I)|exact (D x (or_introl eq_refl) I)].
  - apply IH; [exact L'|exact M|]. intros y I. apply D. right. exact I.
Qed.

Section Facts.
Context {T : Type}.
Variable float_repr : N -> list N.
Hypothesis FR : plain_repr float_repr.
Notation norm := (normalise_property_key float_repr).
Notation entries := (list (pkey * T)).
Definition normal (p : pkey) : Prop := norm (key_of p) = Ok p.
Definition all_normal (m : entries) : Prop := NoDup (dkeys m) /\ forall p, In p (dkeys m) -> normal p.

Lemma norm_normal k p : norm k = Ok p -> normal p.
Proof. intros E. exact (C38_idempotent float_repr k p FR E). Qed.
Lemma put_normal m p v : normal p -> all_normal m -> all_normal (dset pkey_eqb p v m).
Proof.
  intros NP [N A]. split; [apply dset_NoDup; [exact pkey_eqb_spec|exact N]|]. intros q I. apply dset_in_keys in I; [|exact pkey_eqb_spec].
  destruct I as [->|I]; auto.
Qed.
Lemma remove_normal m p : all_normal m -> all_normal (ddel pkey_eqb p m).
Proof.
  intros [N A]. split; [apply ddel_NoDup; [exact pkey_eqb_spec|exact N]|]. intros q I. apply ddel_keys_in in I; [|exact pkey_eqb_spec|exact N].
  apply A, I.
Qed.
Lemma assign_normal m p v : normal p -> all_normal m -> all_normal (assign m p v).
Proof. destruct v; cbn [assign]; auto using put_normal, remove_normal. Qed.
Lemma assign_all_normal ps qs : Forall2 (fun (a : key * option T) b => norm (fst a) = Ok (fst b) /\ snd a = snd b) ps qs ->
  forall m, all_normal m -> all_normal (assign_all m qs).
Proof.
  induction 1 as [|[k v] [p w] ps qs [E _] _ IH]; intros m A; cbn [assign_all]; [exact A|]. apply IH. apply assign_normal; [eapply norm_normal; exact E|exact A].
Qed.
Lemma removes_normal done : forall m, all_normal m -> all_normal (fold_left (fun m k => ddel pkey_eqb k m) done m).
Proof. induction done as [|k d IH]; intros m A; cbn [fold_left]; [exact A|]. apply IH, remove_normal, A. Qed.
Lemma nil_normal : all_normal [].
Proof. split; [constructor|intros p []]. Qed.
Lemma mspec_normal m o r m' : mspec norm m o r m' -> all_normal m -> all_normal m'.
Proof.
  destruct 1; intros A; eauto using assign_normal, remove_normal, put_normal, norm_normal, assign_all_normal, nil_normal.
Qed.
Lemma mdeviation_normal m o r m' : mdeviation norm m o r m' -> all_normal m -> all_normal m'.
Proof.
  destruct 1; intros A; eauto using assign_normal, remove_normal, put_normal, norm_normal, assign_all_normal, removes_normal.
Qed.
Lemma mspecs_normal s m tr m' : mspecs norm s m tr m' -> all_normal m -> all_normal m'.
Proof.
  induction 1 as [|m o r m1 rest m2 [H|[_ H]] _ IH]; intros A; auto; apply IH; eauto using mspec_normal, mdeviation_normal.
Qed.
Lemma made_rep (o : jsobj T) : made_obj float_repr o -> exists m, rep o m /\ all_normal m.
Proof.
  intros [ops [tr E]]. destruct (jo_ops_refines float_repr ops jo_empty [] tr o rep_empty E) as [m [R [X _]]].
  exists m. split; [exact R|]. exact (mspecs_normal _ _ _ _ X nil_normal).
Qed.
Lemma name_key (o : jsobj T) m p : rep o m -> property_name o p <-> In p (dkeys m).
Proof.
  intros R. unfold property_name, property. rewrite (rep_get o m p R). rewrite <- (dget_Some_key _ pkey_eqb_spec).
  destruct (dget pkey_eqb p m) as [v|]; [split; eauto|]. split; intros [v X]; discriminate.
Qed.
Lemma names_spec (o : jsobj T) : made_obj float_repr o ->
  exists l, names o = map key_of l /\ NoDup l /\ jo_len o = Z.of_nat (length l) /\ (forall p, In p l <-> property_name o p) /\ forall p, In p l -> normal p.
Proof.
  intros M. destruct (made_rep o M) as [m [R [N A]]]. destruct (rep_iter o m R) as [ks [o' [E [_ [[ints [S [I ->]]] _]]]]].
  unfold names. rewrite E. cbn [fst]. eexists. split; [reflexivity|].
  assert (forall p, In p (map PInt ints ++ map PStr (str_keys m)) <-> In p (dkeys m)) as IK.
  { intros p. rewrite in_app_iff, (in_map_iff PInt), (in_map_iff PStr). destruct p as [s|z].
    - rewrite <- (str_keys_in m s). split; [intros [[x [X _]]|[x [X J]]]; [discriminate|congruence]|eauto].
    - rewrite <- (int_keys_in m z), <- I. split; [intros [[x [X J]]|[x [X _]]]; [congruence|discriminate]|eauto]. }
  assert (NoDup (map PInt ints ++ map PStr (str_keys m))) as ND.
  { apply NoDup_app_intro.
    - apply FinFun.Injective_map_NoDup; [intros x y; congruence|]. apply ssorted_NoDup, ssorted_ascending, S.
    - apply FinFun.Injective_map_NoDup; [intros x y; congruence|]. apply str_keys_NoDup, N.
    - intros p J K. apply in_map_iff in J as [x [<- _]]. apply in_map_iff in K as [y [K _]]. discriminate. }
  split; [exact ND|]. split; [|split].
  - rewrite (rep_len o m R). f_equal. unfold dkeys in IK. rewrite <- (map_length fst m). apply Nat.le_antisymm; apply NoDup_incl_length; try assumption; intros p; apply IK.
  - intros p. rewrite IK. symmetry. apply name_key, R.
  - intros p J. apply A, IK, J.
Qed.
Lemma has_spec (o : jsobj T) k p : made_obj float_repr o -> norm k = Ok p -> exists b, has float_repr o k = Ok b /\ (b = true <-> property_name o p).
Proof.
  intros M E. destruct (made_rep o M) as [m [R _]]. unfold has, look_up. rewrite E. cbn [bind].
  unfold property_name, property. rewrite (rep_get o m p R).
  destruct (dget pkey_eqb p m) as [v|]; eexists; (split; [reflexivity|]); [split; eauto|]. split; [discriminate|]. intros [v X]. discriminate.
Qed.
Lemma has_names (o : jsobj T) l : made_obj float_repr o -> (forall p, In p l -> normal p) ->
  forall k, In k (map key_of l) -> exists b, has float_repr o k = Ok b /\ (b = true <-> exists p, k = key_of p /\ property_name o p).
Proof.
  intros M A k I. apply in_map_iff in I as [p [<- I]]. destruct (has_spec o (key_of p) p M (A p I)) as [b [E B]]. exists b. split; [exact E|].
  rewrite B. split; [eauto|]. intros [q [X Q]]. apply key_of_inj in X. subst. exact Q.
Qed.
Lemma le_names (a b : jsobj T) : made_obj float_repr a -> made_obj float_repr b ->
  exists x, names_le float_repr a b = Ok x /\ (x = true <-> forall p, property_name a p -> property_name b p).
Proof.
  intros A B. destruct (names_spec a A) as [la [EA [NA [LA [QA FA]]]]]. destruct (names_spec b B) as [lb [EB [NB [LB [QB FB]]]]].
  unfold names_le. rewrite LA, LB. destruct (Z.ltb_spec (Z.of_nat (length lb)) (Z.of_nat (length la))) as [L|L].
  - exists false. split; [reflexivity|]. split; [discriminate|]. intros S. exfalso.
    assert (length la <= length lb)%nat; [|lia]. apply NoDup_incl_length; [exact NA|]. intros p I. apply QB, S, QA, I.
  - rewrite EA. destruct (every_spec (has float_repr b) _ _ (has_names b la B FA)) as [x [E X]]. exists x. split; [exact E|]. rewrite X. split.
    + intros S p P. destruct (S (key_of p)) as [q [Y Q]]; [apply in_map, QA, P|]. apply key_of_inj in Y. subst. exact Q.
    + intros S k I. apply in_map_iff in I as [p [<- I]]. exists p. split; [reflexivity|]. apply S, QA, I.
Qed.
Lemma those_names (test : key -> result bool) (P : pkey -> Prop) l :
  (forall p, In p l -> exists b, test (key_of p) = Ok b /\ (b = true <-> P p)) ->
  exists r, those test (map key_of l) = Ok (map key_of r) /\ forall p, In p r <-> In p l /\ P p.
Proof.
  induction l as [|x l IH]; intros H; cbn [map those].
  - exists []. split; [reflexivity|]. intros p. cbn. tauto.
  - destruct (H x (or_introl eq_refl)) as [b [E B]]. rewrite E. cbn [bind]. destruct IH as [r [F R]]; [intros y I; apply H; right; exact I|].
    rewrite F. cbn [bind]. exists (if b then x :: r else r). split; [destruct b; reflexivity|]. intros y. destruct b; cbn [In]; rewrite R.
    + split; [intros [<-|X]; [split; [auto|apply B; reflexivity]|tauto]|tauto].
    + split; [tauto|]. intros [[<-|I] PX]; [apply B in PX; discriminate|auto].
Qed.
Lemma sub_names (a b : jsobj T) : made_obj float_repr a -> made_obj float_repr b ->
  exists r, names_sub float_repr a b = Ok r /\ exactly r (fun p => property_name a p /\ ~ property_name b p).
Proof.
  intros A B. destruct (names_spec a A) as [la [EA [NA [LA [QA FA]]]]]. unfold names_sub. rewrite EA.
  destruct (those_names (fun k => do x <- has float_repr b k; Ok (negb x)) (fun p => ~ property_name b p) la) as [r [-> R]].
  { intros p I. destruct (has_spec b (key_of p) p B (FA p I)) as [x [E X]]. rewrite E. exists (negb x). split; [reflexivity|].
    destruct x; cbn [negb]; split; try discriminate; try reflexivity.
    - intros N. exfalso. apply N, X. reflexivity.
    - intros _ P. apply X in P. discriminate. }
  cbn [bind]. eexists. split; [reflexivity|]. apply exactly_set_of. intros p. rewrite R, QA. tauto.
Qed.
End Facts.

(** * The property *)
Section Property.
Context {T : Type}.
Variable float_repr : N -> list N.
Hypothesis FR : plain_repr float_repr.
Notation norm := (normalise_property_key float_repr).
Notation made := (made_obj (T := T) float_repr).

(** [in]: every spelling of a property's name is a key, and only these; what raises is normalising the key (C38). *)
Theorem C87_contains : forall (o : jsobj T) k, made o ->
  match norm k with
  | Ok p => exists b, has float_repr o k = Ok b /\ (b = true <-> In (key_of p) (names o))
  | Err e => has float_repr o k = Err e
  end.
Proof.
  intros o k M. destruct (norm k) as [p|e] eqn:E.
  - destruct (has_spec float_repr FR o k p M E) as [b [F B]]. exists b. split; [exact F|]. rewrite B.
    destruct (names_spec float_repr FR o M) as [l [-> [_ [_ [Q _]]]]]. rewrite <- Q. split; [apply in_map|].
    intros I. apply in_map_iff in I as [q [X I]]. apply key_of_inj in X. subst. exact I.
  - unfold has, look_up. rewrite E. cbn [bind]. destruct (C38_raises_only_on_limit float_repr k e) as [X _]. destruct (X E) as [-> _]. reflexivity.
Qed.

(** len() and iteration: each name once *)
Theorem C87_iterates : forall o : jsobj T, made o -> exactly (names o) (property_name o) /\ jo_len o = Z.of_nat (length (names o)).
Proof.
  intros o M. destruct (names_spec float_repr FR o M) as [l [E [N [L [Q F]]]]]. rewrite E, map_length. split; [|exact L]. split; [|split].
  - apply FinFun.Injective_map_NoDup; [intros x y; apply key_of_inj|exact N].
  - intros p. rewrite <- Q. split; [|apply in_map]. intros I. apply in_map_iff in I as [q [X I]]. apply key_of_inj in X. subst. exact I.
  - intros k I. apply in_map_iff in I as [q [<- _]]. eauto.
Qed.

(** Comparing the keys() of two objects compares their sets of names. *)
Theorem C87_compare : forall a b : jsobj T, made a -> made b ->
  let A := property_name a in let B := property_name b in
  let says (r : result bool) (P : Prop) := exists x, r = Ok x /\ (x = true <-> P) in
  says (names_le float_repr a b) (forall p, A p -> B p) /\
  says (names_lt float_repr a b) ((forall p, A p -> B p) /\ exists p, B p /\ ~ A p) /\
  says (names_eq float_repr a b) (forall p, A p <-> B p) /\
  says (names_isdisjoint float_repr a b) (forall p, ~ (A p /\ B p)).
Proof.
  intros a b MA MB A B says. subst A B says. cbn beta.
  destruct (names_spec float_repr FR a MA) as [la [EA [NA [LA [QA FA]]]]]. destruct (names_spec float_repr FR b MB) as [lb [EB [NB [LB [QB FB]]]]].
  destruct (le_names float_repr FR a b MA MB) as [x [E X]]. split; [eauto|]. split; [|split].
  - unfold names_lt. rewrite LA, LB, E. destruct (Z.ltb_spec (Z.of_nat (length la)) (Z.of_nat (length lb))) as [L|L].
    + exists x. split; [reflexivity|]. rewrite X. split; [|tauto]. intros S. split; [exact S|].
      (* some name of b is not in la *)
      destruct (Exists_dec (fun p => ~ In p la) lb) as [EX|NX].
      { intros p. destruct (in_dec (eqb_dec' pkey_eqb pkey_eqb_spec) p la) as [I|I]; [right; tauto|left; exact I]. }
      { apply Exists_exists in EX as [p [I N]]. exists p. split; [apply QB, I|]. rewrite <- QA. exact N. }
      exfalso. assert (length lb <= length la)%nat; [|lia]. apply NoDup_incl_length; [exact NB|]. intros p I.
      destruct (in_dec (eqb_dec' pkey_eqb pkey_eqb_spec) p la) as [J|J]; [exact J|]. exfalso. apply NX. apply Exists_exists. eauto.
    + exists false. split; [reflexivity|]. split; [discriminate|]. intros [S [p [PB PA]]]. exfalso. apply PA, QA.
      assert (incl lb la) as IN; [|apply IN, QB, PB].
      apply NoDup_length_incl; [exact NA|lia|]. intros q I. apply QB, S, QA, I.
  - unfold names_eq. rewrite LA, LB, E. destruct (Z.eqb_spec (Z.of_nat (length la)) (Z.of_nat (length lb))) as [L|L].
    + exists x. split; [reflexivity|]. rewrite X. split; [|intros S p; apply S]. intros S p. split; [apply S|]. intros PB. apply QA.
      assert (incl lb la) as IN; [|apply IN, QB, PB]. apply NoDup_length_incl; [exact NA|lia|]. intros q I. apply QB, S, QA, I.
    + exists false. split; [reflexivity|]. split; [discriminate|]. intros S. exfalso. apply L. f_equal.
      apply Nat.le_antisymm; apply NoDup_incl_length; try assumption; intros p I; [apply QB, S, QA, I|apply QA, S, QB, I].
  - unfold names_isdisjoint. rewrite EB. destruct (no_one_spec (has float_repr a) _ _ (has_names float_repr FR a lb MA FB)) as [y [F Y]].
    exists y. split; [exact F|]. rewrite Y. split.
    + intros S p [PA PB]. apply (S (key_of p)); [apply in_map, QB, PB|eauto].
    + intros S k I [p [-> PA]]. apply in_map_iff in I as [q [W I]]. apply key_of_inj in W. subst. apply (S p). split; [exact PA|apply QB, I].
Qed.

(** The operators between the keys() of two objects *)
Theorem C87_operators : forall a b : jsobj T, made a -> made b ->
  let A := property_name a in let B := property_name b in
  let gives (r : result (list key)) (P : pkey -> Prop) := exists l, r = Ok l /\ exactly l P in
  gives (names_and float_repr a b) (fun p => A p /\ B p) /\
  gives (names_or a b) (fun p => A p \/ B p) /\
  gives (names_sub float_repr a b) (fun p => A p /\ ~ B p) /\
  gives (names_xor float_repr a b) (fun p => (A p /\ ~ B p) \/ (B p /\ ~ A p)).
Proof.
  intros a b MA MB A B gives. subst A B gives. cbn beta.
  destruct (names_spec float_repr FR a MA) as [la [EA [NA [LA [QA FA]]]]]. destruct (names_spec float_repr FR b MB) as [lb [EB [NB [LB [QB FB]]]]].
  split; [|split; [|split]].
  - unfold names_and. rewrite EB. destruct (those_names (has float_repr a) (property_name a) lb) as [r [-> R]].
    { intros p I. exact (has_spec float_repr FR a (key_of p) p MA (FB p I)). }
    cbn [bind]. eexists. split; [reflexivity|]. apply exactly_set_of. intros p. rewrite R, QB. tauto.
  - unfold names_or. rewrite EA, EB, <- map_app. eexists. split; [reflexivity|]. apply exactly_set_of. intros p. rewrite in_app_iff, QA, QB. tauto.
  - apply sub_names; auto.
  - destruct (sub_names float_repr FR a b MA MB) as [x [EX X]]. destruct (sub_names float_repr FR b a MB MA) as [y [EY Y]]. unfold names_xor. rewrite EX, EY. cbn [bind].
    apply exactly_names in X as [lx [-> X]]. apply exactly_names in Y as [ly [-> Y]]. rewrite <- map_app. eexists. split; [reflexivity|].
    apply exactly_set_of. intros p. rewrite in_app_iff, X, Y. tauto.
Qed.

(** & with any iterable of keys: the given spellings of the object's names, and nothing else. *)
Theorem C87_and_iterable : forall (a : jsobj T) l, made a -> (forall k, In k l -> exists p, norm k = Ok p) ->
  exists r, names_and_iterable float_repr a l = Ok r /\
    (forall k, In k r -> In k l /\ exists p, norm k = Ok p /\ property_name a p) /\
    (forall k p, In k l -> norm k = Ok p -> property_name a p -> In k r \/ exists k', In k' r /\ key_eqb k k' = true).
Proof.
  intros a l M D. destruct (those_spec (has float_repr a) (fun k => exists p, norm k = Ok p /\ property_name a p) l) as [r [E R]].
  { intros k I. destruct (D k I) as [p N]. destruct (has_spec float_repr FR a k p M N) as [b [E B]]. exists b. split; [exact E|]. rewrite B.
    split; [eauto|]. intros [q [X Q]]. congruence. }
  unfold names_and_iterable. rewrite E. cbn [bind]. eexists. split; [reflexivity|].
  assert (forall l s, (forall k, In k s -> In k (fold_left (fun s k => if in_set s k then s else s ++ [k]) l s)) /\
    (forall k, In k (fold_left (fun s k => if in_set s k then s else s ++ [k]) l s) -> In k s \/ In k l) /\
    (forall k, In k l -> let t := fold_left (fun s k => if in_set s k then s else s ++ [k]) l s in In k t \/ exists k', In k' t /\ key_eqb k k' = true)) as X.
  { clear. induction l as [|x l IH]; intros s; cbn [fold_left].
    - split; [auto|]. split; [auto|]. intros k [].
    - destruct (IH (if in_set s x then s else s ++ [x])) as [X1 [X2 X3]]. split; [|split].
      + intros k I. apply X1. destruct (in_set s x); [exact I|apply in_or_app; auto].
      + intros k I. apply X2 in I as [I|I]; [|cbn; auto]. destruct (in_set s x); [auto|]. apply in_app_or in I as [I|[<-|[]]]; cbn; auto.
      + intros k [<-|I]; [|apply X3, I]. destruct (in_set s x) eqn:F.
        * right. unfold in_set in F. apply existsb_exists in F as [y [I F]]. exists y. split; [apply X1, I|exact F].
        * left. apply X1, in_or_app. cbn. auto. }
  destruct (X r []) as [_ [X2 X3]]. split.
  - intros k I. destruct (X2 k I) as [[]|J]. apply R in J. exact J.
  - intros k p I N P. apply X3. apply R. split; [exact I|eauto].
Qed.

(** - with an iterable, and the comparisons with a Python set, when the keys in it are spelled as iterating spells them. Missing: other spellings
    (C87_spelling_refuted). *)
Theorem C87_python_set_partial : forall (a : jsobj T) ps, made a -> NoDup ps -> (forall p, In p ps -> norm (key_of p) = Ok p) ->
  let s := map key_of ps in let A := property_name a in
  exactly (names_sub_iterable a s) (fun p => A p /\ ~ In p ps) /\
  (names_le_set a s = true <-> forall p, A p -> In p ps) /\
  (exists x, names_ge_set float_repr a s = Ok x /\ (x = true <-> forall p, In p ps -> A p)) /\
  (names_eq_set a s = true <-> forall p, A p <-> In p ps).
Proof.
  intros a ps M ND NO s A. subst s A. destruct (names_spec float_repr FR a M) as [la [EA [NA [LA [QA FA]]]]].
  assert (names_le_set a (map key_of ps) = true <-> forall p, property_name a p -> In p ps) as LE.
  { unfold names_le_set. rewrite LA, EA, map_length. destruct (Z.ltb_spec (Z.of_nat (length ps)) (Z.of_nat (length la))) as [L|L].
    - split; [discriminate|]. intros H. exfalso. assert (length la <= length ps)%nat; [|lia]. apply NoDup_incl_length; [exact NA|]. intros p I. apply H, QA, I.
    - rewrite forallb_forall. split.
      + intros H p P. apply in_set_of, H, in_map, QA, P.
      + intros H k I. apply in_map_iff in I as [p [<- I]]. apply in_set_of, H, QA, I. }
  split; [|split; [exact LE|split]].
  - unfold names_sub_iterable. rewrite EA. destruct (set_of_names ps) as [r [-> [_ R]]].
    assert (forall l, exists l', filter (fun k => negb (in_set (map key_of r) k)) (map key_of l) = map key_of l' /\ forall p, In p l' <-> In p l /\ ~ In p ps) as X.
    { induction l as [|x l [l' [E Q]]]; cbn [map filter]; [exists []; split; [reflexivity|]; intros p; cbn; tauto|].
      destruct (in_set (map key_of r) (key_of x)) eqn:F; cbn [negb]; rewrite E.
      - apply in_set_of in F. apply R in F. exists l'. split; [reflexivity|]. intros p. rewrite Q. cbn. intuition (subst; tauto).
      - assert (~ In x ps) as NX by (intros I; apply R, in_set_of in I; congruence). exists (x :: l'). split; [reflexivity|]. intros p. cbn. rewrite Q. intuition (subst; tauto). }
    destruct (X la) as [l' [-> Q]]. apply exactly_set_of. intros p. rewrite Q, QA. tauto.
  - unfold names_ge_set. rewrite LA, map_length. destruct (Z.ltb_spec (Z.of_nat (length la)) (Z.of_nat (length ps))) as [L|L].
    + exists false. split; [reflexivity|]. split; [discriminate|]. intros H. exfalso. assert (length ps <= length la)%nat; [|lia].
      apply NoDup_incl_length; [exact ND|]. intros p I. apply QA, H, I.
    + destruct (every_spec (has float_repr a) _ _ (has_names float_repr FR a ps M NO)) as [x [E X]]. exists x. split; [exact E|]. rewrite X. split.
      * intros H p I. destruct (H (key_of p) (in_map _ _ _ I)) as [q [Y Q]]. apply key_of_inj in Y. subst. exact Q.
      * intros H k I. apply in_map_iff in I as [p [<- I]]. eauto.
  - unfold names_eq_set. rewrite LA, map_length. destruct (Z.eqb_spec (Z.of_nat (length la)) (Z.of_nat (length ps))) as [L|L].
    + rewrite LE. split; [|intros H p; apply H]. intros H p. split; [apply H|]. intros I. apply QA.
      assert (incl ps la) as IN; [|apply IN, I]. apply NoDup_length_incl; [exact NA|lia|]. intros q J. apply H, QA, J.
    + split; [discriminate|]. intros H. exfalso. apply L. f_equal. apply Nat.le_antisymm; apply NoDup_incl_length; try assumption; intros p I; [apply H, QA, I|apply QA, H, I].
Qed.

(** items(): [in] and == between the items() of two objects *)
Variable veq : T -> T -> bool.
Theorem C87_items : forall a b : jsobj T, made a -> made b ->
  (forall k p v, norm k = Ok p -> exists x, item_in float_repr veq a (k, v) = Ok x /\ (x = true <-> exists w, property a p w /\ veq w v = true)) /\
  (exists x, same_items float_repr veq a b = Ok x /\
     (x = true <-> (forall p, property_name a p <-> property_name b p) /\ forall p v w, property a p v -> property b p w -> veq w v = true)).
Proof.
  intros a b MA MB.
  assert (forall (o : jsobj T) k p v, made o -> norm k = Ok p -> exists x, item_in float_repr veq o (k, v) = Ok x /\ (x = true <-> exists w, property o p w /\ veq w v = true)) as II.
  { intros o k p v M E. destruct (made_rep float_repr FR o M) as [m [R _]]. unfold item_in, look_up, property. cbn [fst snd]. rewrite E. cbn [bind].
    rewrite (rep_get o m p R). destruct (dget pkey_eqb p m) as [w|]; eexists; (split; [reflexivity|]).
    - split; [intros V; exists w; auto|]. intros [w' [X Y]]. congruence.
    - split; [discriminate|]. intros [w [X _]]. discriminate. }
  split; [intros k p v; apply II, MA|].
  destruct (names_spec float_repr FR a MA) as [la [EA [NA [LA [QA FA]]]]]. destruct (names_spec float_repr FR b MB) as [lb [EB [NB [LB [QB FB]]]]].
  unfold same_items. rewrite LA, LB. destruct (Z.eqb_spec (Z.of_nat (length la)) (Z.of_nat (length lb))) as [L|L].
  - replace (Z.of_nat (length lb) <? Z.of_nat (length la)) with false by lia. rewrite EA.
    assert (forall l, (forall p, In p l -> normal float_repr p /\ property_name a p) -> exists items, items_of float_repr a (map key_of l) = Ok items /\
      forall k v, In (k, v) items <-> exists p, k = key_of p /\ In p l /\ property a p v) as IT.
    { induction l as [|p l IH]; intros G; cbn [map items_of].
      - exists []. split; [reflexivity|]. intros k v. cbn. split; [intros []|intros [p [_ [[] _]]]].
      - destruct (G p (or_introl eq_refl)) as [NP [v P]]. unfold look_up at 1. unfold normal in NP. rewrite NP. cbn [bind]. unfold property in P. rewrite P. cbn [bind].
        destruct IH as [items [E Q]]; [intros q I; apply G; right; exact I|]. rewrite E. cbn [bind]. eexists. split; [reflexivity|]. intros k w. cbn [In]. rewrite Q. split.
        + intros [X|[q [-> [I W]]]]; [injection X as <- <-; exists p; auto|exists q; auto].
        + intros [q [-> [[<-|I] W]]]; [left; unfold property in W; congruence|right; exists q; auto]. }
    destruct (IT la) as [items [E Q]]; [intros p I; split; [apply FA, I|apply QA, I]|]. rewrite E. cbn [bind].
    destruct (every_spec (item_in float_repr veq b) (fun kv => exists p w, fst kv = key_of p /\ property b p w /\ veq w (snd kv) = true) items) as [x [F X]].
    { intros [k v] I. apply Q in I as [p [-> [I P]]]. destruct (II b (key_of p) p v MB (FA p I)) as [x [F X]]. exists x. split; [exact F|]. rewrite X. cbn [fst snd]. split.
      - intros [w [W V]]. exists p, w. auto.
      - intros [q [w [Y [W V]]]]. apply key_of_inj in Y. subst q. eauto. }
    exists x. split; [exact F|]. rewrite X. split.
    + intros S. assert (forall p, property_name a p -> property_name b p) as AB.
      { intros p [v P]. destruct (S (key_of p, v)) as [q [w [Y [W V]]]]; [apply Q; exists p; split; [reflexivity|]; split; [apply QA; exists v; exact P|exact P]|].
        cbn [fst] in Y. apply key_of_inj in Y. subst q. exists w. exact W. }
      split.
      * intros p. split; [apply AB|]. intros PB. apply QA. assert (incl lb la) as IN; [|apply IN, QB, PB]. apply NoDup_length_incl; [exact NA|lia|].
        intros q I. apply QB, AB, QA, I.
      * intros p v w P W. destruct (S (key_of p, v)) as [q [w' [Y [W' V]]]]; [apply Q; exists p; split; [reflexivity|]; split; [apply QA; exists v; exact P|exact P]|].
        cbn [fst snd] in *. apply key_of_inj in Y. subst q. unfold property in *. congruence.
    + intros [S V] [k v] I. apply Q in I as [p [-> [I P]]]. destruct (proj1 (S p)) as [w W]; [exists v; exact P|]. exists p, w. cbn [fst snd]. eauto.
  - exists false. split; [reflexivity|]. split; [discriminate|]. intros [S _]. exfalso. apply L. f_equal.
    apply Nat.le_antisymm; apply NoDup_incl_length; try assumption; intros p I; [apply QB, S, QA, I|apply QA, S, QB, I].
Qed.
End Property.

(** The full claim is false when a key is spelled otherwise: "1" is in JSObject({1: 0}).keys(), yet subtracting ["1"] leaves it; and with {"1"} the
    comparisons contradict each other: keys() >= {"1"}, of the same size, but neither == nor <=. *)
Definition one_obj : jsobj Z := snd (jo_ops (fun _ => []) jo_empty [MSet (KInt 1) (Some 0)]).
Theorem C87_spelling_refuted : made_obj (fun _ => []) one_obj /\ has (fun _ => []) one_obj (KStr [49%N]) = Ok true /\
  names_sub_iterable one_obj [KStr [49%N]] = [KInt 1] /\
  names_ge_set (fun _ => []) one_obj [KStr [49%N]] = Ok true /\ jo_len one_obj = 1 /\ names_eq_set one_obj [KStr [49%N]] = false /\ names_le_set one_obj [KStr [49%N]] = false.
Proof.
  split; [do 2 eexists; unfold one_obj; rewrite <- surjective_pairing; reflexivity|]. repeat split; vm_compute; reflexivity.
Qed.

(** A case: {0, 5, "a"} and {5, "a", "b"} *)
Definition no_repr (_ : N) : list N := [45%N].
Definition obj_a : jsobj Z := snd (jo_ops no_repr jo_empty [MSet (KStr [53%N]) (Some 1); MSet (KStr [97%N]) (Some 2); MSet (KInt 0) (Some 3)]).
Definition obj_b : jsobj Z := snd (jo_ops no_repr jo_empty [MSet (KStr [98%N]) (Some 1); MSet (KInt 5) (Some 1); MSet (KStr [97%N]) (Some 4)]).
Example C87_case : plain_repr no_repr /\ made_obj no_repr obj_a /\ made_obj no_repr obj_b /\
  names obj_a = [KInt 0; KInt 5; KStr [97%N]] /\ names_and no_repr obj_a obj_b = Ok [KInt 5; KStr [97%N]] /\
  names_xor no_repr obj_a obj_b = Ok [KInt 0; KStr [98%N]] /\
  names_and_iterable no_repr obj_a [KStr [53%N]; KStr [55%N]; KInt 0] = Ok [KStr [53%N]; KInt 0] /\
  item_in no_repr Z.eqb obj_a (KStr [53%N], 1) = Ok true.
Proof.
  split; [intros bits m e _ _ D; inversion D as [|? ? X _]; lia|].
  split; [do 2 eexists; unfold obj_a; rewrite <- surjective_pairing; reflexivity|].
  split; [do 2 eexists; unfold obj_b; rewrite <- surjective_pairing; reflexivity|].
  repeat split; vm_compute; reflexivity.
Qed.

Print Assumptions C87_contains.
Print Assumptions C87_iterates.
Print Assumptions C87_compare.
Print Assumptions C87_operators.
Print Assumptions C87_and_iterable.
Print Assumptions C87_python_set_partial.
Print Assumptions C87_items.
Print Assumptions C87_spelling_refuted.
