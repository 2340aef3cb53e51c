(** Facts about SpecRepr: copies, evaluation of lists of expressions and the constructors. *)
From Coq Require Import Ascii String List NArith ZArith Bool Arith Lia.
From Verif Require Import Base Dict SpecArray SpecNumber ModelTags ModelArray ModelValue SpecObject ModelObject ModelMap ModelHeap ModelEncode ModelReprText
  ValueFacts ArrayFacts ArrayFacts2 ArrayFacts3 ObjectFacts Prop_Object2 HashFacts SpecEq SpecRepr ReprFacts ReprFacts2.
Import ListNotations.
Open Scope list_scope.
Open Scope nat_scope.

(** * Copies *)
Section CopyInd.
Variable G : heap.
Variable P : val -> val -> Prop.
Notation both := (fun v w => copy G v w /\ P v w).
Hypothesis Pleaf : forall v, (forall o, v <> VRef o) -> P v v.
Hypothesis Pobject : forall a b x y, nth_error G a = Some (OObject x) -> nth_error G b = Some (OObject y) ->
  Forall2 both (elems (jo_arr x)) (elems (jo_arr y)) -> map fst (jo_props x) = map fst (jo_props y) -> Forall2 both (map snd (jo_props x)) (map snd (jo_props y)) -> P (VRef a) (VRef b).
Hypothesis Parray : forall a b x y, nth_error G a = Some (OArray x) -> nth_error G b = Some (OArray y) ->
  Forall2 both (elems (jo_arr x)) (elems (jo_arr y)) -> map fst (jo_props x) = map fst (jo_props y) -> Forall2 both (map snd (jo_props x)) (map snd (jo_props y)) -> P (VRef a) (VRef b).
Hypothesis Pmap : forall a b m m', nth_error G a = Some (OMap m) -> nth_error G b = Some (OMap m') ->
  Forall2 both (map fst (map snd m)) (map fst (map snd m')) -> Forall2 both (map snd (map snd m)) (map snd (map snd m')) -> P (VRef a) (VRef b).
Hypothesis Pset : forall a b m m', nth_error G a = Some (OSet m) -> nth_error G b = Some (OSet m') -> Forall2 both (map snd m) (map snd m') -> P (VRef a) (VRef b).
Hypothesis Perror : forall a b n m s c c', nth_error G a = Some (OError n m s c) -> nth_error G b = Some (OError n m s c') -> copy G c c' -> P c c' -> P (VRef a) (VRef b).
Fixpoint copy_induct v w (C : copy G v w) {struct C} : P v w :=
  let fix go l m (F : Forall2 (copy G) l m) {struct F} : Forall2 both l m :=
    match F in Forall2 _ l m return Forall2 both l m with
    | Forall2_nil _ => Forall2_nil _
    | Forall2_cons x y HXY HR => Forall2_cons x y (conj HXY (copy_induct _ _ HXY)) (go _ _ HR)
    end in
  match C in copy _ v w return P v w with
  | cp_leaf _ v L => Pleaf v L
  | cp_object _ a b x y A B E N F => Pobject a b x y A B (go _ _ E) N (go _ _ F)
  | cp_array _ a b x y A B E N F => Parray a b x y A B (go _ _ E) N (go _ _ F)
  | cp_map _ a b m m' A B E F => Pmap a b m m' A B (go _ _ E) (go _ _ F)
  | cp_set _ a b m m' A B E => Pset a b m m' A B (go _ _ E)
  | cp_error _ a b n m s c c' A B E => Perror a b n m s c c' A B E (copy_induct _ _ E)
  end.
End CopyInd.
Lemma Forall2_imp {A B} (P Q : A -> B -> Prop) l m : (forall x y, P x y -> Q x y) -> Forall2 P l m -> Forall2 Q l m.
Proof. intros W F. induction F; constructor; auto. Qed.
Lemma nth_app_some {A} (l m : list A) i x : nth_error l i = Some x -> nth_error (l ++ m) i = Some x.
Proof. intros E. rewrite nth_error_app1; [exact E|]. apply nth_error_Some. congruence. Qed.
Lemma copy_grows G X v w : copy G v w -> copy (G ++ X) v w.
Proof.
  intros C. apply (copy_induct G (copy (G ++ X))); try exact C; clear.
  - intros. apply cp_leaf. assumption.
  - intros a b x y A B E N F. eapply cp_object; try (apply nth_app_some; eassumption); try exact N; (eapply Forall2_imp; [|eassumption]); intros ? ? [_ Q]; exact Q.
  - intros a b x y A B E N F. eapply cp_array; try (apply nth_app_some; eassumption); try exact N; (eapply Forall2_imp; [|eassumption]); intros ? ? [_ Q]; exact Q.
  - intros a b m m' A B E F. eapply cp_map; try (apply nth_app_some; eassumption); (eapply Forall2_imp; [|eassumption]); intros ? ? [_ Q]; exact Q.
  - intros a b m m' A B E. eapply cp_set; try (apply nth_app_some; eassumption); (eapply Forall2_imp; [|eassumption]); intros ? ? [_ Q]; exact Q.
  - intros a b n m s c c' A B _ Q. eapply cp_error; try (apply nth_app_some; eassumption). exact Q.
Qed.
Lemma copy_leaf G v w : copy G v w -> (forall o, v <> VRef o) -> w = v.
Proof. intros C L. inversion C; subst; try reflexivity; exfalso; eapply L; reflexivity. Qed.
Definition js_obj (x : obj) : bool := match x with OObject _ | OArray _ | OMap _ | OSet _ | OError _ _ _ _ => true | _ => false end.
Lemma copy_ref G a w : copy G (VRef a) w -> exists b x y, w = VRef b /\ nth_error G a = Some x /\ nth_error G b = Some y /\ js_obj x = true /\ js_obj y = true.
Proof.
  intros C. inversion C as [v L| | | | |]; subst; [exfalso; eapply L; reflexivity|..]; do 3 eexists; (split; [reflexivity|]); (split; [eassumption|]); (split; [eassumption|]); auto.
Qed.
Lemma copy_hole G v w : copy G v w -> (w = VHole <-> v = VHole).
Proof. intros C. destruct v; try (pose proof (copy_leaf _ _ _ C) as E; rewrite E by discriminate; tauto). apply copy_ref in C as [b [x [y [-> _]]]]. split; discriminate. Qed.

(** * Results of evaluation *)
Definition refs (vs : list val) : list nat := flat_map (fun v => match v with VRef b => [b] | _ => [] end) vs.
Lemma refs_in vs b : In b (refs vs) <-> In (VRef b) vs.
Proof.
  unfold refs. rewrite in_flat_map. split.
  - intros [v [I E]]. destruct v; try destruct E. subst. exact I. contradiction.
  - intros I. exists (VRef b). split; [exact I|left; reflexivity].
Qed.
Lemma NoDup_app_intro {A} (l m : list A) : NoDup l -> NoDup m -> (forall x, In x l -> ~ In x m) -> NoDup (l ++ m).
Proof.
  intros N1 N2 D. induction N1 as [|x l NI N1 IH]; cbn [app]; [exact N2|]. constructor.
  - intros I. apply in_app_or in I as [I|I]; [contradiction|]. eapply D; [left; reflexivity|exact I].
  - apply IH. intros y I. apply D. right. exact I.
Qed.
Definition array_ok (x : obj) : Prop := match x with OObject o | OArray o => arr_ok (jo_arr o) /\ ~ In (Some VHole) (aabs (jo_arr o)) | _ => True end.
(** New objects refer only to newer objects before them. *)
Definition tidy (G N : heap) : Prop := forall i x, nth_error N i = Some x -> js_obj x = true /\ array_ok x /\ forall c, holds x (VRef c) -> length G <= c < length G + i.
Record results (G N : heap) (vs vs' : list val) : Prop := {
  rs_copy : Forall2 (copy (G ++ N)) vs vs';
  rs_fresh : forall b, In (VRef b) vs' -> length G <= b < length (G ++ N);
  rs_distinct : NoDup (refs vs');
  rs_tidy : tidy G N }.
Lemma results_nil G : results G [] [] [].
Proof. constructor; [constructor|intros b []|constructor|]. intros i x E. destruct i; discriminate. Qed.
Lemma results_app G N1 N2 vs1 vs2 ws1 ws2 : results G N1 vs1 ws1 -> results (G ++ N1) N2 vs2 ws2 -> results G (N1 ++ N2) (vs1 ++ vs2) (ws1 ++ ws2).
Proof.
  intros [C1 F1 D1 T1] [C2 F2 D2 T2]. constructor.
  - rewrite app_assoc. apply Forall2_app; [|exact C2]. eapply Forall2_imp; [|exact C1]. intros x y. apply copy_grows.
  - intros b I. rewrite !app_length in *. apply in_app_or in I as [I|I]; [apply F1 in I|apply F2 in I]; rewrite ?app_length in I; lia.
  - unfold refs. rewrite flat_map_app. apply NoDup_app_intro; [exact D1|exact D2|]. intros b I J. apply refs_in in I, J. apply F1 in I. apply F2 in J. lia.
  - intros i x E. destruct (Nat.ltb i (length N1)) eqn:L.
    + apply Nat.ltb_lt in L. rewrite nth_error_app1 in E by exact L. apply T1. exact E.
    + apply Nat.ltb_ge in L. rewrite nth_error_app2 in E by exact L. destruct (T2 _ _ E) as [J [A Q]]. split; [exact J|]. split; [exact A|].
      intros c I. apply Q in I. rewrite app_length in I. lia.
Qed.
(** A new object made of the results *)
Lemma results_object G N vs vs' v y : results G N vs vs' -> js_obj y = true -> array_ok y -> (forall b, holds y (VRef b) -> In (VRef b) vs') ->
  copy (G ++ N ++ [y]) v (VRef (length (G ++ N))) -> results G (N ++ [y]) [v] [VRef (length (G ++ N))].
Proof.
  intros [C F D T] J A I CP. constructor.
  - constructor; [exact CP|constructor].
  - intros b [[= <-]|[]]. rewrite !app_length. cbn [length]. lia.
  - cbn. constructor; [intros []|constructor].
  - intros i x E. destruct (Nat.ltb i (length N)) eqn:L.
    + apply Nat.ltb_lt in L. rewrite nth_error_app1 in E by exact L. apply T. exact E.
    + apply Nat.ltb_ge in L. rewrite nth_error_app2 in E by exact L. destruct (i - length N) as [|k] eqn:EK; [|destruct k; discriminate]. cbn in E. injection E as <-.
      split; [exact J|]. split; [exact A|]. intros c HC. apply I, F in HC. rewrite app_length in HC. lia.
Qed.

Section Eval.
Variable H : heap.
Variable float_repr : N -> list N.
Notation eval := (eval float_repr).
Definition ext (G : heap) : Prop := exists X, G = H ++ X.
Lemma ext_app G N : ext G -> ext (G ++ N).
Proof. intros [X ->]. exists (X ++ N). rewrite app_assoc. reflexivity. Qed.
Lemma ext_nth G o x : ext G -> nth_error H o = Some x -> nth_error G o = Some x.
Proof. intros [X ->]. apply nth_app_some. Qed.
(** Evaluation makes copies of [vs] and returns something made of them. *)
Definition evals {A} (vs : list val) (m : E A) (Q : list val -> A -> Prop) : Prop :=
  forall G, ext G -> exists vs' N x, m G = Some (x, G ++ N) /\ results G N vs vs' /\ Q vs' x.
Lemma evals_ret {A} (x : A) : evals [] (e_ret x) (fun vs' y => vs' = [] /\ y = x).
Proof. intros G X. exists [], [], x. rewrite app_nil_r. split; [reflexivity|]. split; [apply results_nil|]. auto. Qed.
Lemma evals_mono {A} vs (m : E A) (Q Q' : list val -> A -> Prop) : evals vs m Q -> (forall vs' x, Q vs' x -> Q' vs' x) -> evals vs m Q'.
Proof. intros M W G X. destruct (M G X) as [vs' [N [x [E [RS q]]]]]. exists vs', N, x. auto. Qed.
Lemma evals_bind {A B} vs1 vs2 (m : E A) (k : A -> E B) (Q1 : list val -> A -> Prop) (Q : list val -> B -> Prop) :
  evals vs1 m Q1 -> (forall ws1 x, Q1 ws1 x -> evals vs2 (k x) (fun ws2 y => Q (ws1 ++ ws2) y)) -> evals (vs1 ++ vs2) (e_bind m k) Q.
Proof.
  intros M K G X. destruct (M G X) as [ws1 [N1 [x [E1 [R1 q1]]]]]. destruct (K ws1 x q1 (G ++ N1) (ext_app _ _ X)) as [ws2 [N2 [y [E2 [R2 q2]]]]].
  exists (ws1 ++ ws2), (N1 ++ N2), y. unfold e_bind. rewrite E1, E2, app_assoc. split; [reflexivity|]. split; [apply results_app; assumption|exact q2].
Qed.
Lemma evals_then {A B} vs (m : E A) (k : A -> E B) (Q1 : list val -> A -> Prop) (Q : list val -> B -> Prop) (f : A -> B) :
  evals vs m Q1 -> (forall x G, k x G = Some (f x, G)) -> (forall ws x, Q1 ws x -> Q ws (f x)) -> evals vs (e_bind m k) Q.
Proof.
  intros M K W G X. destruct (M G X) as [ws1 [N1 [x [E1 [R1 q1]]]]]. exists ws1, N1, (f x). unfold e_bind. rewrite E1, K. auto.
Qed.
Lemma e_each_map {A B C} (f : B -> E C) (g : A -> B) l : forall G, e_each f (map g l) G = e_each (fun x => f (g x)) l G.
Proof.
  induction l as [|x l IH]; intros G; [reflexivity|]. cbn [map e_each]. unfold e_bind. destruct (f (g x) G) as [[y G1]|]; [|reflexivity]. rewrite IH. reflexivity.
Qed.
(** ** Items: a key, a value, its text and its expression *)
Record item {K : Type} : Type := mkItem { dk : K; dv : val; dt : list tok; de : expr }.
Arguments item : clear implicits.
Definition one {A} (out : val -> A) (vs' : list val) (x : A) : Prop := exists v', vs' = [v'] /\ x = out v'.
Lemma evals_items {K A} (h : item K -> E A) (out : item K -> val -> A) ds :
  Forall (fun d => evals [dv d] (h d) (one (out d))) ds ->
  evals (map dv ds) (e_each h ds) (fun vs' xs => length vs' = length ds /\ xs = map (fun q => out (fst q) (snd q)) (combine ds vs')).
Proof.
  intros F. induction F as [|d ds D F IH]; cbn [map e_each].
  - eapply evals_mono; [apply evals_ret|]. intros vs' x [-> ->]. split; reflexivity.
  - change (dv d :: map dv ds) with ([dv d] ++ map dv ds). eapply evals_bind; [exact D|]. intros ws1 x [v' [-> ->]]. cbn beta.
    rewrite <- (app_nil_r (map dv ds)). eapply evals_bind; [exact IH|]. intros ws2 xs [L ->]. eapply evals_mono; [apply evals_ret|]. intros ws3 y [-> ->].
    rewrite app_nil_r. cbn [app combine map length fst snd]. split; [f_equal; exact L|reflexivity].
Qed.
Lemma eval_list_eq l : eval (EList l) = e_bind (e_each eval l) (fun l => e_ret (PList l)). Proof. reflexivity. Qed.
Lemma eval_tuple_eq l : eval (ETuple l) = e_bind (e_each eval l) (fun l => e_ret (PTuple l)). Proof. reflexivity. Qed.
Definition pair_eval (p : expr * expr) : E (pv * pv) := e_bind (eval (fst p)) (fun k => e_bind (eval (snd p)) (fun v => e_ret (k, v))).
Lemma eval_dict_eq l : eval (EDict l) = e_bind (e_each pair_eval l) (fun ps H => match dict_display H ps [] with Some l => Some (PDict l, H) | None => None end).
Proof. reflexivity. Qed.
Definition arg_eval (a : akind * expr) : E av := e_bind (eval (snd a)) (fun x H =>
          match fst a, x with
          | APos, _ => Some (VPos x, H)
          | AKey n, _ => Some (VKeys [(n, x)], H)
          | AStar, PDict l => match star_keys l with Some k => Some (VKeys k, H) | None => None end
          | AStar, _ => None
          end).
Definition call_eval (f : list N) (avs : list av) : E pv := fun H =>
           match keywords (keyed avs) [] with
           | Some kw => match construct float_repr H f (positional avs) kw with Some x => Some (PV (VRef (length H)), H ++ [x]) | None => None end
           | None => None
           end.
Lemma eval_call_eq f args : eval (ECall f args) = e_bind (e_each arg_eval args) (call_eval f).
Proof. reflexivity. Qed.
(** Expressions of values *)
Definition evaluates (v : val) (e : expr) : Prop := evals [v] (eval e) (one PV).
Definition good {K} (d : item K) : Prop := evaluates (dv d) (de d).
Lemma evals_list {K} (ds : list (item K)) : Forall good ds -> evals (map dv ds) (eval (EList (map de ds))) (fun vs' x => length vs' = length ds /\ x = PList (map PV vs')).
Proof.
  intros F. rewrite eval_list_eq. eapply evals_then with (f := PList); [|reflexivity|].
  - intros G X. rewrite e_each_map. revert G X. apply (evals_items _ (fun _ v => PV v)). exact F.
  - cbn beta. intros ws x [L ->]. split; [exact L|]. f_equal. clear F. revert ds L. induction ws as [|w ws IH]; intros [|d ds] L; try discriminate; [reflexivity|]. cbn. f_equal. apply IH. injection L. auto.
Qed.
(** Dict displays: keys that are hashable and distinct *)
Definition hashed (v : val) (h : hkey) : Prop := forall G, hash G 1 v = Some h.
Lemma put_entry_fresh G k kv l : (forall q, In q l -> exists h, hash G 1 (fst q) = Some h /\ h <> k) -> put_entry G k kv l = l ++ [kv].
Proof.
  induction l as [|[k' v'] l IH]; intros F; cbn [put_entry app]; [reflexivity|]. destruct (F (k', v')) as [h [E N]]; [left; reflexivity|]. cbn [fst] in E. rewrite E.
  destruct (hkey_eqb h k) eqn:Q; [apply hkey_eqb_spec in Q; contradiction|]. rewrite IH; [reflexivity|]. intros q I. apply F. right. exact I.
Qed.
Lemma dict_display_fresh G (ks : list val) (hs : list hkey) (xs : list pv) : length xs = length ks -> Forall2 hashed ks hs -> forall l lhs, Forall2 (fun q h => hash G 1 (fst q) = Some h) l lhs -> NoDup (lhs ++ hs) ->
  dict_display G (combine (map PV ks) xs) l = Some (l ++ combine ks xs).
Proof.
  intros L F. revert xs L. induction F as [|k h ks hs HK F IH]; intros xs L l lhs FL ND.
  - destruct xs; [|discriminate]. cbn. rewrite app_nil_r. reflexivity.
  - destruct xs as [|x xs]; [discriminate|]. cbn [map combine dict_display]. rewrite (HK G).
    assert (~ In h lhs) as NI by (intros I; apply NoDup_remove_2 in ND; apply ND, in_or_app; left; exact I).
    rewrite put_entry_fresh.
    + rewrite (IH xs (eq_add_S _ _ L) (l ++ [(k, x)]) (lhs ++ [h])).
      * rewrite <- app_assoc. reflexivity.
      * apply Forall2_app; [exact FL|]. constructor; [apply HK|constructor].
      * rewrite <- app_assoc. exact ND.
    + intros q I. clear -FL NI I. induction FL as [|q' h' l lhs E FL IHF]; [destruct I|]. destruct I as [->|I].
      * exists h'. split; [exact E|]. intros ->. apply NI. left. reflexivity.
      * apply IHF; [intros J; apply NI; right; exact J|exact I].
Qed.
(** A dict display with literal keys *)
Lemma map_fst_combine {A B} (l : list A) (m : list B) : length m = length l -> map fst (combine l m) = l.
Proof. revert m. induction l as [|x l IH]; intros [|y m] L; try discriminate; [reflexivity|]. cbn. f_equal. apply IH. injection L. auto. Qed.
Lemma map_snd_combine {A B} (l : list A) (m : list B) : length m = length l -> map snd (combine l m) = m.
Proof. revert m. induction l as [|x l IH]; intros [|y m] L; try discriminate; [reflexivity|]. cbn. f_equal. apply IH. injection L. auto. Qed.
Lemma combine_map {A A' B B'} (f : A -> A') (g : B -> B') l m : combine (map f l) (map g m) = map (fun q => (f (fst q), g (snd q))) (combine l m).
Proof. revert m. induction l as [|x l IH]; intros [|y m]; try reflexivity. cbn. f_equal. apply IH. Qed.
Lemma evals_dict (ds : list (item val)) hs : Forall good ds -> Forall2 hashed (map dk ds) hs -> NoDup hs ->
  evals (map dv ds) (eval (EDict (map (fun d => (ELit (dk d), de d)) ds))) (fun vs' x => length vs' = length ds /\ x = PDict (combine (map dk ds) (map PV vs'))).
Proof.
  intros F FH ND. rewrite eval_dict_eq. intros G X.
  assert (evals (map dv ds) (e_each pair_eval (map (fun d => (ELit (dk d), de d)) ds)) (fun vs' xs => length vs' = length ds /\ xs = combine (map PV (map dk ds)) (map PV vs'))) as M.
  { clear G X. intros G X. rewrite e_each_map. revert G X. eapply evals_mono.
    - apply (evals_items _ (fun d v => (PV (dk d), PV v))). eapply Forall_impl; [|exact F]. intros d D. unfold pair_eval. cbn [fst snd].
      intros G X. unfold e_bind at 1. cbn [SpecRepr.eval e_ret]. revert G X. eapply evals_then with (f := fun v => (PV (dk d), v)); [exact D|reflexivity|]. intros ws x [v' [-> ->]]. exists v'. auto.
    - cbn beta. intros vs' x [L ->]. split; [exact L|]. rewrite map_map, combine_map. apply map_ext_in. reflexivity. }
  destruct (M G X) as [ws [N [xs [E [RS [L ->]]]]]]. exists ws, N, (PDict (combine (map dk ds) (map PV ws))). unfold e_bind. rewrite E.
  rewrite (dict_display_fresh (G ++ N) (map dk ds) hs (map PV ws)) with (lhs := []); [|rewrite !map_length; exact L|exact FH|constructor|exact ND]. auto.
Qed.
(** Arguments of a call; [None] is positional *)
Definition arg_of (n : option (list N)) : akind := match n with Some n => AKey n | None => APos end.
Definition av_of (n : option (list N)) (v : val) : av := match n with Some n => VKeys [(n, PV v)] | None => VPos (PV v) end.
Lemma evals_args (ds : list (item (option (list N)))) : Forall good ds ->
  evals (map dv ds) (e_each arg_eval (map (fun d => (arg_of (dk d), de d)) ds)) (fun vs' xs => length vs' = length ds /\ xs = map (fun q => av_of (fst q) (snd q)) (combine (map dk ds) vs')).
Proof.
  intros F G X. rewrite e_each_map. revert G X. eapply evals_mono.
  - apply (evals_items _ (fun d v => av_of (dk d) v)). eapply Forall_impl; [|exact F]. intros d D. unfold arg_eval. cbn [fst snd].
    intros G X. destruct (D G X) as [ws [N [x [E [RS [v' [-> ->]]]]]]]. exists [v'], N, (av_of (dk d) v'). unfold e_bind. rewrite E. destruct (dk d); (split; [reflexivity|]); (split; [exact RS|]); exists v'; auto.
  - cbn beta. intros vs' x [L ->]. split; [exact L|]. clear. revert vs'. induction ds as [|d ds IH]; intros [|w vs']; try reflexivity. cbn. f_equal. apply IH.
Qed.
Lemma keyed_names names vs : length vs = length names -> keyed (map (fun q => av_of (fst q) (snd q)) (combine (map Some names) vs)) = combine names (map PV vs).
Proof. revert vs. induction names as [|n names IH]; intros [|v vs] L; try discriminate; [reflexivity|]. cbn. f_equal. apply IH. injection L. auto. Qed.
Lemma positional_names names vs : positional (map (fun q => av_of (fst q) (snd q)) (combine (map Some names) vs)) = [].
Proof. revert vs. induction names as [|n names IH]; intros [|v vs]; try reflexivity. cbn. apply IH. Qed.
Lemma keywords_distinct names : forall vs seen, NoDup names -> (forall n, In n names -> ~ In n seen) -> length vs = length names ->
  keywords (combine names (map PV vs)) seen = Some (combine names vs).
Proof.
  induction names as [|n names IH]; intros [|v vs] seen ND S L; try discriminate; [reflexivity|]. cbn [map combine keywords]. inversion ND as [|? ? NI ND']; subst.
  destruct (existsb (listN_eqb n) seen) eqn:E.
  { apply existsb_exists in E as [x [I E]]. apply listN_eqb_spec in E. subst. exfalso. eapply S; [left; reflexivity|exact I]. }
  cbn [as_val]. rewrite IH; [reflexivity|exact ND'| |injection L; auto]. intros m I [->|J]; [contradiction|]. eapply S; [right; exact I|exact J].
Qed.

(** ** Constructors *)
Lemma all_some_map {A B} (f : A -> option B) (g : A -> B) l : (forall x, In x l -> f x = Some (g x)) -> all_some (map f l) = Some (map g l).
Proof. induction l as [|x l IH]; intros F; [reflexivity|]. cbn [map all_some]. rewrite (F x) by (left; reflexivity). rewrite IH; [reflexivity|]. intros y I. apply F. right. exact I. Qed.
Lemma elem_of_some v : v <> VHole -> elem_of v = Some v.
Proof. intros N. destruct v; try reflexivity. congruence. Qed.
(** Elements with copies in place of the values *)
Fixpoint refill (l : list (option val)) (vs : list val) : list (option val) :=
  match l with
  | [] => []
  | None :: l => None :: refill l vs
  | Some _ :: l => match vs with v :: vs => Some v :: refill l vs | [] => [] end
  end.
Lemma refill_entries l : forall vs i, length vs = length (entries_from i l) -> entries_from i (refill l vs) = combine (map fst (entries_from i l)) vs.
Proof.
  induction l as [|[v|] l IH]; intros vs i L; cbn [entries_from refill length] in *.
  - destruct vs; [reflexivity|discriminate].
  - destruct vs as [|w vs]; [discriminate|]. cbn [entries_from map fst combine]. f_equal. apply IH. injection L. auto.
  - apply IH. exact L.
Qed.
Lemma refill_length l : forall vs i, length vs = length (entries_from i l) -> length (refill l vs) = length l.
Proof.
  induction l as [|[v|] l IH]; intros vs i L; cbn [entries_from refill length] in *; [reflexivity| |].
  - destruct vs as [|w vs]; [discriminate|]. cbn [length]. f_equal. apply (IH vs (i + 1)%Z). injection L. auto.
  - f_equal. apply (IH vs (i + 1)%Z). exact L.
Qed.
Lemma refill_last l : forall vs i, length vs = length (entries_from i l) -> no_trailing_hole l -> no_trailing_hole (refill l vs).
Proof.
  induction l as [|e l IH]; intros vs i L LA; [exact LA|].
  assert (no_trailing_hole l) as LA2. { intros d N. destruct l as [|e2 l]; [congruence|]. apply (LA d). discriminate. }
  destruct l as [|e2 l].
  - destruct e as [v|]; [|exfalso; apply (LA None); [discriminate|reflexivity]]. destruct vs as [|w vs]; [discriminate|]. cbn. intros d _. discriminate.
  - destruct e as [v|].
    + change (entries_from i (Some v :: e2 :: l)) with ((i, v) :: entries_from (i + 1) (e2 :: l)) in L. destruct vs as [|w vs]; [discriminate|].
      change (refill (Some v :: e2 :: l) (w :: vs)) with (Some w :: refill (e2 :: l) vs). cbn [length] in L. apply eq_add_S in L.
      specialize (IH vs _ L LA2). intros d _. pose proof (refill_length _ _ _ L) as RL. destruct (refill (e2 :: l) vs) as [|f r] eqn:E; [discriminate|]. apply IH. discriminate.
    + change (entries_from i (None :: e2 :: l)) with (entries_from (i + 1) (e2 :: l)) in L.
      change (refill (None :: e2 :: l) vs) with (None :: refill (e2 :: l) vs).
      specialize (IH vs _ L LA2). intros d _. pose proof (refill_length _ _ _ L) as RL. destruct (refill (e2 :: l) vs) as [|f r] eqn:E; [discriminate|]. apply IH. discriminate.
Qed.
Definition hole_as (e : option val) : val := match e with Some v => v | None => VHole end.
Lemma refill_copy G l : forall vs i, Forall2 (copy G) (map snd (entries_from i l)) vs -> Forall2 (copy G) (map hole_as l) (map hole_as (refill l vs)).
Proof.
  induction l as [|[v|] l IH]; intros vs i F; cbn [entries_from refill map] in *; [constructor| |].
  - inversion F as [|? w ? vs' C F']; subst. cbn [snd map hole_as] in *. constructor; [exact C|]. apply (IH vs' (i + 1)%Z). exact F'.
  - constructor; [apply cp_leaf; discriminate|]. apply (IH vs (i + 1)%Z). exact F.
Qed.
Lemma refill_in l : forall vs v, In (Some v) (refill l vs) -> In v vs.
Proof.
  induction l as [|[u|] l IH]; intros vs v I; cbn [refill] in I; [destruct I| |].
  - destruct vs as [|w vs]; [destruct I|]. destruct I as [[= ->]|I]; [left; reflexivity|right; apply IH; exact I].
  - destruct I as [I|I]; [discriminate|apply IH; exact I].
Qed.
Notation norm := (normalise_property_key float_repr).
(** update with values that are not holes *)
Lemma update_with_some o (ks : list key) vs : length vs = length ks -> (forall v, In v vs -> v <> VHole) ->
  update_with float_repr o (map (fun q => (Some (fst q), Some (snd q))) (combine ks vs)) =
  match jo_update float_repr o (map (fun q => (fst q, Some (snd q))) (combine ks vs)) with (Ok _, o) => Some o | _ => None end.
Proof.
  intros L N. unfold update_with. rewrite map_map. rewrite (all_some_map _ (fun q : key * val => (fst q, Some (snd q)))); [reflexivity|].
  intros q I. f_equal. f_equal. apply elem_of_some. apply N. destruct q as [k v]. eapply in_combine_r. exact I.
Qed.
Lemma name_items_eq names vs : name_items (combine names vs) = map (fun q => (Some (fst q), Some (snd q))) (combine (map KStr names) vs).
Proof. unfold name_items. revert vs. induction names as [|n names IH]; intros [|v vs]; try reflexivity. cbn. f_equal. apply IH. Qed.
Lemma update_names' o names vs : length vs = length names -> (forall v, In v vs -> v <> VHole) -> Forall (fun n => norm (KStr n) = Ok (PStr n)) names -> NoDup names -> jo_props o = [] ->
  update_with float_repr o (name_items (combine names vs)) = Some (mkObj (jo_arr o) (combine names vs)).
Proof.
  intros L NH NM ND PE. rewrite name_items_eq, update_with_some by (rewrite ?map_length; assumption).
  assert (map (fun q => (fst q, Some (snd q))) (combine (map KStr names) vs) = map (fun p => (KStr (fst p), Some (snd p))) (combine names vs)) as ->.
  { clear. revert vs. induction names as [|n names IH]; intros [|v vs]; try reflexivity. cbn. f_equal. apply IH. }
  rewrite update_names.
  - rewrite PE. reflexivity.
  - apply Forall_forall. intros [n v] I. apply in_combine_l in I. rewrite Forall_forall in NM. apply NM. exact I.
  - rewrite PE. cbn [map app]. rewrite map_fst_combine by exact L. exact ND.
Qed.
Lemma update_with_app o ps qs : Forall (fun p => exists k v, p = (Some k, Some v)) ps -> Forall (fun p => exists k v, p = (Some k, Some v)) qs ->
  update_with float_repr o (ps ++ qs) = match update_with float_repr o ps with Some o => update_with float_repr o qs | None => None end.
Proof.
  intros FP FQ. unfold update_with.
  assert (forall l, Forall (fun p : option key * option val => exists k v, p = (Some k, Some v)) l -> exists r, forall m, all_some (map (fun p => match p with (Some k, Some v) => Some (k, elem_of v) | _ => None end) (l ++ m)) =
    match all_some (map (fun p => match p with (Some k, Some v) => Some (k, elem_of v) | _ => None end) m) with Some q => Some (r ++ q) | None => None end) as A.
  { intros l F. induction F as [|p l [k [v ->]] F [r IH]]; [exists []; intros m; cbn [app]; destruct (all_some _); reflexivity|].
    exists ((k, elem_of v) :: r). intros m. cbn [app map all_some]. rewrite IH. destruct (all_some (map _ m)); reflexivity. }
  destruct (A ps FP) as [r A1]. destruct (A qs FQ) as [q A2]. pose proof (A1 []) as P1. pose proof (A2 []) as Q1. rewrite app_nil_r in P1, Q1. cbn [map all_some] in P1, Q1. rewrite app_nil_r in P1, Q1.
  rewrite A1, P1, Q1. clear. revert o. induction r as [|[k v] r IH]; intros o; cbn [app jo_update].
  - reflexivity.
  - destruct (norm k) as [p|]; [|reflexivity]. destruct (jo_set o p v) as [[[]|e] o2]; [|reflexivity]. apply IH.
Qed.
(** The entries {index: element} *)
Lemma update_indexes l vs : length vs = length (entries_from 0 l) -> (forall v, In v vs -> v <> VHole) -> no_trailing_hole l -> (zlen l <= 2 ^ 32 - 1)%Z ->
  exists o, update_with float_repr jo_empty (dict_items (combine (map VInt (map fst (entries_from 0 l))) (map PV vs))) = Some o /\
    arr_ok (jo_arr o) /\ aabs (jo_arr o) = refill l vs /\ jo_props o = [].
Proof.
  intros L NH LA LE. assert (no_trailing_hole (refill l vs)) as LA2 by (eapply refill_last; eassumption).
  destruct (update_entries float_repr (refill l vs) LA2) as [o [E [OK [AB PE]]]]; [unfold zlen in *; rewrite (refill_length l vs 0%Z L); exact LE|].
  exists o. split; [|auto]. unfold dict_items.
  assert (map (fun p => (property_key (fst p), as_val (snd p))) (combine (map VInt (map fst (entries_from 0 l))) (map PV vs)) =
          map (fun q => (Some (fst q), Some (snd q))) (combine (map KInt (map fst (entries_from 0 l))) vs)) as ->.
  { generalize (map fst (entries_from 0 l)) as ks. clear. intros ks. revert vs. induction ks as [|k ks IH]; intros [|v vs]; try reflexivity. cbn. f_equal. apply IH. }
  rewrite update_with_some by (rewrite ?map_length; assumption).
  assert (map (fun q => (fst q, Some (snd q))) (combine (map KInt (map fst (entries_from 0 l))) vs) = int_entries (entries_from 0 (refill l vs))) as ->.
  { rewrite refill_entries by exact L. unfold int_entries. generalize (map fst (entries_from 0 l)) as ks. clear. intros ks. revert vs. induction ks as [|k ks IH]; intros [|v vs]; try reflexivity. cbn. f_equal. apply IH. }
  rewrite E. reflexivity.
Qed.
Lemma dict_items_names names vs : length vs = length names -> dict_items (combine (map VStr names) (map PV vs)) = name_items (combine names vs).
Proof. intros L. unfold dict_items, name_items. revert vs L. induction names as [|n names IH]; intros [|v vs] L; try reflexivity. cbn. f_equal. apply IH. injection L. auto. Qed.
End Eval.
Arguments item : clear implicits.
