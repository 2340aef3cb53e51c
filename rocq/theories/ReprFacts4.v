(** Evaluation of the calls that JSRepr writes. *)
From Coq Require Import Ascii String List NArith ZArith Bool Arith Lia.
From Verif Require Import Base Dict SpecArray SpecNumber ModelTags ModelArray ModelValue SpecObject ModelObject ModelMap ModelHeap ModelEncode ModelReprText
  ValueFacts ArrayFacts ArrayFacts2 ArrayFacts3 ObjectFacts Prop_Object2 HashFacts MapFacts SpecEq SpecRepr ReprFacts ReprFacts2 ReprFacts3.
Import ListNotations.
Open Scope list_scope.
Open Scope nat_scope.

Definition copied_object (G : heap) (x y : jsobj val) : Prop :=
  Forall2 (copy G) (elems (jo_arr x)) (elems (jo_arr y)) /\ map fst (jo_props x) = map fst (jo_props y) /\ Forall2 (copy G) (map snd (jo_props x)) (map snd (jo_props y)).
Definition node_copy (G : heap) (x y : obj) : Prop :=
  match x, y with
  | OObject x, OObject y | OArray x, OArray y => copied_object G x y
  | OMap m, OMap m' => Forall2 (copy G) (map fst (map snd m)) (map fst (map snd m')) /\ Forall2 (copy G) (map snd (map snd m)) (map snd (map snd m'))
  | OSet m, OSet m' => Forall2 (copy G) (map snd m) (map snd m')
  | OError n m s c, OError n' m' s' c' => n = n' /\ m = m' /\ s = s' /\ copy G c c'
  | _, _ => False
  end.
Lemma node_copy_copy G x y a : nth_error G a = Some x -> node_copy G x y -> copy (G ++ [y]) (VRef a) (VRef (length G)).
Proof.
  intros E C. assert (nth_error (G ++ [y]) a = Some x) as A by (apply nth_app_some; exact E).
  assert (nth_error (G ++ [y]) (length G) = Some y) as B by (rewrite nth_error_app2 by lia; rewrite Nat.sub_diag; reflexivity).
  assert (forall l m, Forall2 (copy G) l m -> Forall2 (copy (G ++ [y])) l m) as W by (intros l m; apply Forall2_imp; intros; apply copy_grows; assumption).
  destruct x, y; try (exfalso; exact C); cbn [node_copy] in C.
  - destruct C as [C1 C2]. eapply cp_map; eauto.
  - eapply cp_set; eauto.
  - destruct C as [C1 [C2 C3]]. eapply cp_object; eauto.
  - destruct C as [C1 [C2 C3]]. eapply cp_array; eauto.
  - destruct C as [-> [-> [-> C]]]. eapply cp_error; eauto. apply copy_grows. exact C.
Qed.

Lemma app_inj_len {A} (a b c d : list A) : length a = length c -> a ++ b = c ++ d -> a = c /\ b = d.
Proof. revert c. induction a as [|x a IH]; intros [|y c] L E; try discriminate; [auto|]. cbn in E. injection E as -> E. destruct (IH c (eq_add_S _ _ L) E) as [-> ->]. auto. Qed.

Lemma combine_app' {A B} (a b : list A) (c d : list B) : length c = length a -> combine (a ++ b) (c ++ d) = combine a c ++ combine b d.
Proof. revert c. induction a as [|x a IH]; intros [|y c] L; try discriminate; [reflexivity|]. cbn. f_equal. apply IH. injection L. auto. Qed.

Section Calls.
Variable H : heap.
Variable float_repr : N -> list N.
Notation norm := (normalise_property_key float_repr).
Notation eval := (eval float_repr).
Notation evals := (evals H).
Notation ext := (ext H).
Notation arg_eval := (arg_eval float_repr).
Notation evaluates := (evaluates H float_repr).
Notation good := (good H float_repr).
Definition call_ok (f : list N) (x : obj) (vs : list val) (avs : list av) (vs' : list val) : Prop :=
  forall G, ext G -> Forall2 (copy G) vs vs' -> NoDup (refs vs') ->
  exists y kw, keywords (keyed avs) [] = Some kw /\ construct float_repr G f (positional avs) kw = Some y /\ js_obj y = true /\ array_ok y /\
    (forall b, holds y (VRef b) -> In (VRef b) vs') /\ node_copy G x y.
Lemma evaluates_call f args vs Q a x : nth_error H a = Some x -> evals vs (e_each arg_eval args) Q ->
  (forall vs' avs, Q vs' avs -> call_ok f x vs avs vs') -> evaluates (VRef a) (ECall f args).
Proof.
  intros A M W G X. rewrite eval_call_eq. destruct (M G X) as [vs' [N [avs [E [RS q]]]]].
  destruct (W vs' avs q (G ++ N) (ext_app _ _ _ X) (rs_copy _ _ _ _ RS) (rs_distinct _ _ _ _ RS)) as [y [kw [EK [EC [J [OK [HO NC]]]]]]].
  exists [VRef (length (G ++ N))], (N ++ [y]), (PV (VRef (length (G ++ N)))). unfold e_bind, call_eval. rewrite E, EK, EC. rewrite <- app_assoc. split; [reflexivity|]. split.
  - eapply results_object; try eassumption. rewrite app_assoc. apply node_copy_copy with (x := x); [|exact NC]. eapply ext_nth; [apply ext_app; exact X|exact A].
  - eexists. split; reflexivity.
Qed.
(** ** JSObject and JSArray *)
Definition new_from (base : option (jsobj val)) (kw : list (list N * val)) : option (jsobj val) :=
  match base with Some o => update_with float_repr o (name_items kw) | None => None end.
Definition base_of (pos : list pv) : option (jsobj val) :=
  match pos with [] => Some jo_empty | [PDict l] => update_with float_repr jo_empty (dict_items l) | _ => None end.
(** [f] makes objects with [mk] *)
Definition makes (f : list N) (mk : jsobj val -> obj) : Prop :=
  forall G pos kw, match pos with [] | [PDict _] => True | _ => False end -> construct float_repr G f pos kw = option_map mk (new_from (base_of pos) kw).
Lemma makes_object : makes (chars "JSObject") OObject.
Proof. intros G pos kw _. reflexivity. Qed.
Lemma makes_array : makes (chars "JSArray") OArray.
Proof. intros G pos kw C. destruct pos as [|[] [|]]; try destruct C; reflexivity. Qed.
Definition class_of (mk : jsobj val -> obj) : Prop := mk = OObject \/ mk = OArray.
Lemma class_facts mk y : class_of mk -> js_obj (mk y) = true /\ (array_ok (mk y) = (arr_ok (jo_arr y) /\ ~ In (Some VHole) (aabs (jo_arr y)))) /\
  (forall v, holds (mk y) v <-> In (Some v) (aabs (jo_arr y)) \/ exists n, In (n, v) (jo_props y)) /\
  forall G x, node_copy G (mk x) (mk y) = copied_object G x y.
Proof. intros [-> | ->]; (split; [reflexivity|]); (split; [reflexivity|]); (split; [reflexivity|]); reflexivity. Qed.
Definition good_names (names : list (list N)) : Prop := NoDup names /\ Forall (fun n => norm (KStr n) = Ok (PStr n)) names.
Lemma copies_not_hole G vs ws : Forall2 (copy G) vs ws -> (forall v, In v vs -> v <> VHole) -> forall w, In w ws -> w <> VHole.
Proof. intros F. induction F as [|v w vs ws C F IH]; intros N u I; [destruct I|]. destruct I as [->|I]; [|apply IH; [intros x J; apply N; right; exact J|exact I]]. intros ->. apply (N v); [left; reflexivity|]. apply (copy_hole _ _ _ C). reflexivity. Qed.
Lemma Forall2_len {A B} (P : A -> B -> Prop) l m : Forall2 P l m -> length m = length l.
Proof. intros F. induction F; [reflexivity|]. cbn. f_equal. exact IHF. Qed.
Lemma holds_made (y : jsobj val) l ws1 names ws2 b : aabs (jo_arr y) = refill l ws1 -> jo_props y = combine names ws2 ->
  In (Some (VRef b)) (aabs (jo_arr y)) \/ (exists n, In (n, VRef b) (jo_props y)) -> In (VRef b) (ws1 ++ ws2).
Proof.
  intros -> -> [I|[n I]]; apply in_or_app; [left; eapply refill_in; exact I|right; eapply in_combine_r; exact I].
Qed.
(** What is made from entries for the elements and names for the properties *)
Lemma made_object f mk x G ws1 ws2 pos kw base : makes f mk -> class_of mk -> match pos with [] | [PDict _] => True | _ => False end ->
  base_of pos = Some base -> new_from (Some base) kw = Some (mkObj (jo_arr base) (combine (map fst (jo_props x)) ws2)) ->
  arr_ok (jo_arr base) -> aabs (jo_arr base) = refill (aabs (jo_arr x)) ws1 ->
  Forall2 (copy G) (map snd (entries_from 0 (aabs (jo_arr x)))) ws1 -> Forall2 (copy G) (map snd (jo_props x)) ws2 -> (forall w, In w ws1 -> w <> VHole) ->
  exists y, construct float_repr G f pos kw = Some y /\ js_obj y = true /\ array_ok y /\ (forall b, holds y (VRef b) -> In (VRef b) (ws1 ++ ws2)) /\ node_copy G (mk x) y.
Proof.
  intros M CL PS BE NW OK AB C1 C2 W1. set (y := mkObj (jo_arr base) (combine (map fst (jo_props x)) ws2)).
  pose proof (Forall2_len _ _ _ C2) as L2. rewrite map_length in L2.
  exists (mk y). rewrite (M G pos kw PS), BE, NW. destruct (class_facts mk y CL) as [J [AO [HO NC]]]. split; [reflexivity|]. split; [exact J|]. split; [rewrite AO; split; [exact OK|]; cbn [y jo_arr]; rewrite AB; intros I; apply refill_in in I; exact (W1 _ I eq_refl)|]. split.
  - intros b I. apply HO in I. exact (holds_made y (aabs (jo_arr x)) ws1 (map fst (jo_props x)) ws2 b AB eq_refl I).
  - rewrite NC. split; [|split].
    + unfold elems. cbn [y jo_arr]. rewrite AB. apply (refill_copy G _ _ 0%Z). exact C1.
    + cbn [y jo_props]. rewrite map_fst_combine; [reflexivity|]. rewrite map_length. exact L2.
    + cbn [y jo_props]. rewrite map_snd_combine; [exact C2|]. rewrite map_length. exact L2.
Qed.
Lemma refill_nil (l : list (option val)) : entries_from 0 l = [] -> no_trailing_hole l -> l = [].
Proof.
  intros E LA. destruct l as [|e l]; [reflexivity|]. exfalso. apply (LA None); [discriminate|]. revert E. generalize 0%Z. clear LA. revert e. induction l as [|e2 l IH]; intros e i E.
  - destruct e; [discriminate|reflexivity].
  - destruct e; [discriminate|]. change (last (None :: e2 :: l) None) with (last (e2 :: l) (@None val)). eapply IH. exact E.
Qed.
Section Object.
Variable f : list N.
Variable mk : jsobj val -> obj.
Hypothesis MK : makes f mk.
Hypothesis CL : class_of mk.
Variable a : nat.
Variable x : jsobj val.
Hypothesis A : nth_error H a = Some (mk x).
Hypothesis NM : good_names (map fst (jo_props x)).
Hypothesis NH : forall v, In (Some v) (aabs (jo_arr x)) \/ (exists n, In (n, v) (jo_props x)) -> v <> VHole.
Notation l := (aabs (jo_arr x)).
Notation props := (jo_props x).
Lemma prop_not_hole v : In v (map snd props) -> v <> VHole.
Proof. intros I. apply in_map_iff in I as [[n w] [<- I]]. apply NH. right. exists n. exact I. Qed.
Lemma elem_not_hole v : In v (map snd (entries_from 0 l)) -> v <> VHole.
Proof.
  intros I. apply NH. left. revert I. generalize 0%Z. generalize l. clear. intros l. induction l as [|[u|] l IH]; intros i I; cbn [entries_from map] in I.
  - destruct I.
  - destruct I as [<-|I]; [left; reflexivity|right; eapply IH; exact I].
  - right. eapply IH. exact I.
Qed.
Lemma names_args (ds : list (item (option (list N)))) : map dk ds = map Some (map fst props) -> map dv ds = map snd props -> Forall good ds ->
  evals (map snd props) (e_each arg_eval (map (fun d => (arg_of (dk d), de d)) ds))
    (fun ws xs => length ws = length props /\ positional xs = [] /\ keyed xs = combine (map fst props) (map PV ws)).
Proof.
  intros DK DV F. rewrite <- DV. eapply evals_mono; [apply evals_args; exact F|]. cbn beta. intros ws xs [L ->].
  assert (length ds = length props) as LD by (rewrite <- (map_length dv), DV, map_length; reflexivity).
  split; [congruence|]. rewrite DK. split; [apply positional_names|apply keyed_names; rewrite map_length; congruence].
Qed.
Lemma kw_update base ws : jo_props base = [] -> length ws = length props -> (forall w, In w ws -> w <> VHole) ->
  keywords (combine (map fst props) (map PV ws)) [] = Some (combine (map fst props) ws) /\
  new_from (Some base) (combine (map fst props) ws) = Some (mkObj (jo_arr base) (combine (map fst props) ws)).
Proof.
  intros PE L N. destruct NM as [ND NR]. split.
  - apply keywords_distinct; [exact ND|intros n _ []|rewrite map_length; exact L].
  - cbn [new_from]. apply update_names'; try assumption. rewrite map_length. exact L.
Qed.
(** f(name=value, ...) *)
Lemma call_names (ds : list (item (option (list N)))) : l = [] -> map dk ds = map Some (map fst props) -> map dv ds = map snd props -> Forall good ds ->
  evaluates (VRef a) (ECall f (map (fun d => (arg_of (dk d), de d)) ds)).
Proof.
  intros LE DK DV F. eapply evaluates_call; [exact A|apply names_args; eassumption|]. cbn beta. intros ws xs [L [PO KY]] G X C ND.
  pose proof (copies_not_hole _ _ _ C prop_not_hole) as WN.
  destruct (kw_update jo_empty ws eq_refl L WN) as [K1 K2]. rewrite PO, KY.
  destruct (made_object f mk x G [] ws [] _ jo_empty MK CL Logic.I eq_refl K2) as [y Y]; [reflexivity| | |exact C|intros w []|].
  - rewrite LE. reflexivity.
  - rewrite LE. constructor.
  - exists y, (combine (map fst props) ws). split; [exact K1|exact Y].
Qed.
(** f({index: value, ...}, name=value, ...) *)
Lemma hashed_ints (ks : list Z) : NoDup ks -> exists hs, Forall2 hashed (map VInt ks) hs /\ NoDup hs /\ Forall (fun h => forall s, h <> HStr s) hs.
Proof.
  intros ND.
  assert (exists g, (forall k, hashed (VInt k) (g k)) /\ (forall k k', g k = g k' -> k = k') /\ forall k s, g k <> HStr s) as [g [G1 [G2 G3]]].
  { exists (fun k => match hnumber (Finite k 0) with Some h => h | None => HNone end). split; [|split].
    - intros k G. cbn. unfold hnumber. destruct (canon k 0). reflexivity.
    - intros k k' E. assert (hnumber (Finite k 0) = hnumber (Finite k' 0)) as E2 by (unfold hnumber in *; destruct (canon k 0), (canon k' 0); congruence).
      assert (same_number (Finite k 0) (Finite k' 0)) as SN by (apply hnumber_eq; [unfold hnumber; destruct (canon k 0); discriminate|exact E2]).
      unfold same_number, same_value in SN. change (2 ^ 0)%Z with 1%Z in SN. cbn in SN. destruct k, k'; cbn in SN; lia.
    - intros k s. unfold hnumber. destruct (canon k 0). discriminate. }
  exists (map g ks). split; [|split].
  - clear ND. induction ks; constructor; auto.
  - clear -ND G2. induction ND as [|k ks NI ND IH]; cbn [map]; constructor; [|exact IH]. intros I. apply in_map_iff in I as [k' [E I]]. apply G2 in E. subst. contradiction.
  - apply Forall_forall. intros h I s. apply in_map_iff in I as [k [<- _]]. apply G3.
Qed.
Lemma hashed_strs (ks : list (list N)) : NoDup ks -> exists hs, Forall2 hashed (map VStr ks) hs /\ NoDup hs /\ Forall (fun h => exists s, h = HStr s) hs.
Proof.
  intros ND. exists (map HStr ks). split; [|split].
  - clear. induction ks; constructor; auto. intros G. reflexivity.
  - clear -ND. induction ND as [|k ks NI ND IH]; cbn [map]; constructor; [|exact IH]. intros I. apply in_map_iff in I as [k' [E I]]. injection E as ->. contradiction.
  - apply Forall_forall. intros h I. apply in_map_iff in I as [k [<- _]]. eauto.
Qed.
Lemma indexes_distinct : NoDup (map fst (entries_from 0 l)).
Proof. rewrite entries_from_keys. apply ssorted_NoDup, indexes_from_sorted. Qed.
Definition ds_ints (ds : list (item val)) : Prop := map dk ds = map VInt (map fst (entries_from 0 l)) /\ map dv ds = map snd (entries_from 0 l) /\ Forall good ds.
Definition ds_strs (ds : list (item val)) : Prop := map dk ds = map VStr (map fst props) /\ map dv ds = map snd props /\ Forall good ds.
Definition ds_names (ds : list (item (option (list N)))) : Prop := map dk ds = map Some (map fst props) /\ map dv ds = map snd props /\ Forall good ds.
Definition dict_of (ds : list (item val)) : expr := EDict (map (fun d => (ELit (dk d), de d)) ds).
Hypothesis LA : no_trailing_hole l.
Hypothesis LE : (zlen l <= 2 ^ 32 - 1)%Z.
Lemma call_indexes ds1 ds2 : ds_ints ds1 -> ds_names ds2 ->
  evaluates (VRef a) (ECall f ((APos, dict_of ds1) :: map (fun d => (arg_of (dk d), de d)) ds2)).
Proof.
  intros [DK1 [DV1 F1]] [DK2 [DV2 F2]]. destruct (hashed_ints _ indexes_distinct) as [hs [FH [NDH _]]].
  eapply evaluates_call with (vs := map snd (entries_from 0 l) ++ map snd props)
    (Q := fun vs' avs => exists ws1 ws2 xs, vs' = ws1 ++ ws2 /\ length ws1 = length (entries_from 0 l) /\ length ws2 = length props /\
            avs = VPos (PDict (combine (map VInt (map fst (entries_from 0 l))) (map PV ws1))) :: xs /\ positional xs = [] /\ keyed xs = combine (map fst props) (map PV ws2)); [exact A| |].
  - cbn [e_each]. eapply evals_bind with (Q1 := fun ws1 y => length ws1 = length (entries_from 0 l) /\ y = VPos (PDict (combine (map VInt (map fst (entries_from 0 l))) (map PV ws1)))).
    + unfold ReprFacts3.arg_eval. cbn [fst snd]. rewrite <- DV1. eapply evals_then with (f := VPos); [apply (evals_dict H float_repr ds1 hs F1); [rewrite DK1; exact FH|exact NDH]|reflexivity|].
      cbn beta. intros ws y [L ->]. rewrite DK1. split; [|reflexivity]. rewrite L. rewrite <- (map_length dv ds1), DV1, map_length. reflexivity.
    + intros ws1 y [L1 ->]. rewrite <- (app_nil_r (map snd props)). eapply evals_bind; [apply names_args; eassumption|]. cbn beta. intros ws2 xs [L2 [PO KY]].
      eapply evals_mono; [apply evals_ret|]. intros ws3 z [-> ->]. exists ws1, ws2, xs. rewrite app_nil_r. auto 7.
  - cbn beta. intros vs' avs [ws1 [ws2 [xs [-> [L1 [L2 [-> [PO KY]]]]]]]] G X C ND.
    assert (Forall2 (copy G) (map snd (entries_from 0 l)) ws1 /\ Forall2 (copy G) (map snd props) ws2) as [C1 C2].
    { apply Forall2_app_inv_l in C as [u1 [u2 [C1 [C2 EU]]]]. assert (u1 = ws1 /\ u2 = ws2) as [-> ->]; [|auto].
      apply app_inj_len; [|exact (eq_sym EU)]. rewrite (Forall2_len _ _ _ C1), map_length. congruence. }
    pose proof (copies_not_hole _ _ _ C1 elem_not_hole) as W1. pose proof (copies_not_hole _ _ _ C2 prop_not_hole) as W2.
    destruct (update_indexes float_repr l ws1 L1 W1 LA LE) as [base [EB [OK [AB PE]]]].
    destruct (kw_update base ws2 PE L2 W2) as [K1 K2]. cbn [keyed positional]. rewrite PO, KY.
    destruct (made_object f mk x G ws1 ws2 [PDict (combine (map VInt (map fst (entries_from 0 l))) (map PV ws1))] _ base MK CL Logic.I EB K2 OK AB C1 C2 W1) as [y Y].
    exists y, (combine (map fst props) ws2). split; [exact K1|exact Y].
Qed.
(** f({index: value, ..., 'name': value, ...}) *)
Lemma update_with_nil o : update_with float_repr o [] = Some o. Proof. reflexivity. Qed.
Lemma split_copies G (vs1 vs2 ws1 ws2 : list val) : length ws1 = length vs1 -> Forall2 (copy G) (vs1 ++ vs2) (ws1 ++ ws2) -> Forall2 (copy G) vs1 ws1 /\ Forall2 (copy G) vs2 ws2.
Proof.
  intros L C. apply Forall2_app_inv_l in C as [u1 [u2 [C1 [C2 EU]]]]. assert (u1 = ws1 /\ u2 = ws2) as [-> ->]; [|auto].
  apply app_inj_len; [|exact (eq_sym EU)]. rewrite (Forall2_len _ _ _ C1). congruence.
Qed.
Lemma call_entries ds1 ds2 : ds_ints ds1 -> ds_strs ds2 -> evaluates (VRef a) (ECall f [(APos, dict_of (ds1 ++ ds2))]).
Proof.
  intros [DK1 [DV1 F1]] [DK2 [DV2 F2]]. destruct (hashed_ints _ indexes_distinct) as [hs [FH [NDH NS]]]. destruct (hashed_strs _ (proj1 NM)) as [hs2 [FH2 [NDH2 IS]]].
  assert (length ds1 = length (entries_from 0 l)) as LD1 by (rewrite <- (map_length dv ds1), DV1, map_length; reflexivity).
  assert (length ds2 = length props) as LD2 by (rewrite <- (map_length dv ds2), DV2, map_length; reflexivity).
  eapply evaluates_call with (vs := map snd (entries_from 0 l) ++ map snd props)
    (Q := fun vs' avs => length vs' = length (entries_from 0 l) + length props /\
            avs = [VPos (PDict (combine (map VInt (map fst (entries_from 0 l)) ++ map VStr (map fst props)) (map PV vs')))]); [exact A| |].
  - cbn [e_each]. rewrite <- (app_nil_r (_ ++ _)).
    eapply evals_bind with (Q1 := fun ws y => length ws = length (entries_from 0 l) + length props /\ y = VPos (PDict (combine (map VInt (map fst (entries_from 0 l)) ++ map VStr (map fst props)) (map PV ws)))).
    + unfold ReprFacts3.arg_eval. cbn [fst snd]. rewrite <- DV1, <- DV2, <- map_app.
      eapply evals_then with (f := VPos); [apply (evals_dict H float_repr (ds1 ++ ds2) (hs ++ hs2))|reflexivity|].
      * apply Forall_app. auto.
      * rewrite map_app, DK1, DK2. apply Forall2_app; assumption.
      * apply NoDup_app_intro; [exact NDH|exact NDH2|]. intros h I J. rewrite Forall_forall in NS, IS. destruct (IS h J) as [t ->]. eapply NS; [exact I|reflexivity].
      * cbn beta. intros ws y [L ->]. rewrite map_app, DK1, DK2. rewrite app_length in L. split; [congruence|reflexivity].
    + intros ws1 y [L1 ->]. rewrite <- (app_nil_r []). eapply evals_bind; [apply evals_ret|]. intros ws2 xs [-> ->].
      eapply evals_mono; [apply evals_ret|]. intros ws3 z [-> ->]. rewrite !app_nil_r. auto.
  - cbn beta. intros vs' avs [L ->] G X C ND.
    rewrite <- (firstn_skipn (length (entries_from 0 l)) vs') in *. set (ws1 := firstn _ vs') in *. set (ws2 := skipn _ vs') in *.
    assert (length ws1 = length (entries_from 0 l)) as L1. { unfold ws1. rewrite firstn_length. rewrite app_length in L. unfold ws1, ws2 in L. rewrite firstn_length, skipn_length in L. lia. }
    assert (length ws2 = length props) as L2 by (rewrite app_length in L; lia).
    assert (length ws1 = length (map snd (entries_from 0 l))) as L1' by (rewrite map_length; exact L1).
    destruct (split_copies G _ _ _ _ L1' C) as [C1 C2].
    pose proof (copies_not_hole _ _ _ C1 elem_not_hole) as W1. pose proof (copies_not_hole _ _ _ C2 prop_not_hole) as W2.
    destruct (update_indexes float_repr l ws1 L1 W1 LA LE) as [base [EB [OK [AB PE]]]].
    cbn [keyed positional].
    set (items := combine (map VInt (map fst (entries_from 0 l)) ++ map VStr (map fst props)) (map PV (ws1 ++ ws2))).
    assert (base_of [PDict items] = Some (mkObj (jo_arr base) (combine (map fst props) ws2))) as EB2.
    { cbn [base_of]. unfold items. rewrite map_app. rewrite combine_app' by (rewrite !map_length; exact L1). unfold dict_items. rewrite map_app. change (map _ (combine (map VInt ?k) ?v)) with (dict_items (combine (map VInt k) v)).
      change (map _ (combine (map VStr ?k) ?v)) with (dict_items (combine (map VStr k) v)). rewrite dict_items_names by (rewrite map_length; exact L2).
      rewrite update_with_app.
      - rewrite EB. apply update_names'; try assumption; [rewrite map_length; exact L2|exact (proj2 NM)|exact (proj1 NM)].
      - apply Forall_forall. intros p I. unfold dict_items in I. apply in_map_iff in I as [[k v] [<- I]]. apply in_combine_l in I as IK. apply in_combine_r in I. apply in_map_iff in IK as [z [<- _]]. apply in_map_iff in I as [w [<- _]]. cbn. eauto.
      - apply Forall_forall. intros p I. unfold name_items in I. apply in_map_iff in I as [[k v] [<- I]]. cbn. eauto. }
    destruct (made_object f mk x G ws1 ws2 [PDict items] [] (mkObj (jo_arr base) (combine (map fst props) ws2)) MK CL Logic.I EB2 (update_with_nil _) OK AB C1 C2 W1) as [y Y].
    exists y, []. split; [reflexivity|exact Y].
Qed.
End Object.
(** JSArray([value, ...], name=value, ...) and JSArray([value, ...], **{'name': value, ...}) *)
Lemma elems_elem_of vs : map hole_as (map elem_of vs) = vs.
Proof. induction vs as [|v vs IH]; [reflexivity|]. cbn. f_equal; [destruct v; reflexivity|exact IH]. Qed.
Lemma new_list vs kw : new_array float_repr [PList (map PV vs)] kw = 
  match arr_extend (ADense (dense_init [])) (map elem_of vs) with (Ok _, a) => update_with float_repr (mkObj a []) (name_items kw) | _ => None end.
Proof.
  unfold new_array. assert (all_some (map as_val (map PV vs)) = Some vs) as ->.
  { induction vs as [|v vs IH]; [reflexivity|]. cbn [map all_some as_val]. rewrite IH. reflexivity. }
  cbn [jo_empty jo_arr]. destruct (arr_extend _ _) as [[[]|e] a]; reflexivity.
Qed.
Lemma list_object x G ws1 ws2 : good_names (map fst (jo_props x)) -> (forall n v, In (n, v) (jo_props x) -> v <> VHole) ->
  Forall2 (copy G) (elems (jo_arr x)) ws1 -> Forall2 (copy G) (map snd (jo_props x)) ws2 ->
  exists y, construct float_repr G (chars "JSArray") [PList (map PV ws1)] (combine (map fst (jo_props x)) ws2) = Some y /\ js_obj y = true /\ array_ok y /\ (forall b, holds y (VRef b) -> In (VRef b) (ws1 ++ ws2)) /\ node_copy G (OArray x) y.
Proof.
  intros [ND NR] NH C1 C2. change (construct float_repr G (chars "JSArray") [PList (map PV ws1)] ?kw) with (option_map OArray (new_array float_repr [PList (map PV ws1)] kw)).
  rewrite new_list. destruct (dense_extend_spec (map elem_of ws1) (dense_init []) (proj1 (dense_init_spec []))) as [d [E [OK DI]]]. rewrite E. cbn [app] in DI. change (d_items (dense_init [])) with (@nil (option val)) in DI. cbn [app] in DI.
  pose proof (Forall2_len _ _ _ C2) as L2. rewrite map_length in L2.
  rewrite update_names'; [|rewrite map_length; exact L2| |exact NR|exact ND|reflexivity].
  2:{ eapply copies_not_hole; [exact C2|]. intros v I. apply in_map_iff in I as [[n w] [<- I]]. eapply NH. exact I. }
  eexists. split; [reflexivity|]. split; [reflexivity|]. split; [split; [exact OK|]; cbn [jo_arr aabs]; rewrite DI; intros I; apply in_map_iff in I as [w [Q _]]; destruct w; discriminate|]. split.
  - intros b [I|[n I]]; cbn [jo_arr jo_props aabs] in I; apply in_or_app.
    + left. rewrite DI in I. apply in_map_iff in I as [v [EV I]]. destruct v; cbn in EV; try discriminate; injection EV as <-; exact I.
    + right. eapply in_combine_r. exact I.
  - cbn [node_copy]. unfold copied_object. cbn [jo_arr jo_props]. rewrite map_fst_combine, map_snd_combine by (rewrite map_length; exact L2).
    split; [|split; [reflexivity|exact C2]]. unfold elems at 2. cbn [aabs]. rewrite DI. fold hole_as. change (fun e : option val => match e with Some v => v | None => VHole end) with hole_as. rewrite elems_elem_of. exact C1.
Qed.
Section List_.
Variable a : nat.
Variable x : jsobj val.
Hypothesis A : nth_error H a = Some (OArray x).
Hypothesis NM : good_names (map fst (jo_props x)).
Hypothesis NH : forall n v, In (n, v) (jo_props x) -> v <> VHole.
Variable ds1 : list (item unit).
Hypothesis D1 : map dv ds1 = elems (jo_arr x) /\ Forall good ds1.
Lemma list_arg : evals (elems (jo_arr x)) (arg_eval (APos, EList (map de ds1))) (fun ws y => length ws = length (elems (jo_arr x)) /\ y = VPos (PList (map PV ws))).
Proof.
  destruct D1 as [DV F]. unfold ReprFacts3.arg_eval. cbn [fst snd]. rewrite <- DV. eapply evals_then with (f := VPos); [apply evals_list; exact F|reflexivity|].
  cbn beta. intros ws y [L ->]. rewrite map_length. auto.
Qed.
Lemma call_list ds2 : ds_names x ds2 ->
  evaluates (VRef a) (ECall (chars "JSArray") ((APos, EList (map de ds1)) :: map (fun d => (arg_of (dk d), de d)) ds2)).
Proof.
  intros [DK2 [DV2 F2]].
  eapply evaluates_call with (vs := elems (jo_arr x) ++ map snd (jo_props x))
    (Q := fun vs' avs => exists ws1 ws2 xs, vs' = ws1 ++ ws2 /\ length ws1 = length (elems (jo_arr x)) /\ length ws2 = length (jo_props x) /\
            avs = VPos (PList (map PV ws1)) :: xs /\ positional xs = [] /\ keyed xs = combine (map fst (jo_props x)) (map PV ws2)); [exact A| |].
  - cbn [e_each]. eapply evals_bind; [exact list_arg|].
    intros ws1 y [L1 ->]. rewrite <- (app_nil_r (map snd (jo_props x))). eapply evals_bind; [apply names_args; eassumption|]. cbn beta. intros ws2 xs [L2 [PO KY]].
    eapply evals_mono; [apply evals_ret|]. intros ws3 z [-> ->]. exists ws1, ws2, xs. rewrite app_nil_r. auto 7.
  - cbn beta. intros vs' avs [ws1 [ws2 [xs [-> [L1 [L2 [-> [PO KY]]]]]]]] G X C ND. destruct (split_copies G _ _ _ _ L1 C) as [C1 C2].
    destruct (list_object x G ws1 ws2 NM NH C1 C2) as [y Y]. cbn [keyed positional]. rewrite PO, KY. exists y, (combine (map fst (jo_props x)) ws2). split; [|exact Y].
    apply keywords_distinct; [exact (proj1 NM)|intros n _ []|rewrite map_length; exact L2].
Qed.
Lemma star_keys_names names ws : star_keys (combine (map VStr names) (map PV ws)) = Some (combine names (map PV ws)).
Proof.
  unfold star_keys. revert ws. induction names as [|n names IH]; intros [|w ws]; try reflexivity. cbn [map combine fst snd all_some]. specialize (IH ws).
  destruct (all_some _) eqn:E; [|discriminate]. injection IH as ->. reflexivity.
Qed.
Lemma call_list_star ds2 : ds_strs x ds2 ->
  evaluates (VRef a) (ECall (chars "JSArray") [(APos, EList (map de ds1)); (AStar, dict_of ds2)]).
Proof.
  intros [DK2 [DV2 F2]]. destruct (hashed_strs _ (proj1 NM)) as [hs2 [FH2 [NDH2 _]]].
  assert (length ds2 = length (jo_props x)) as LD2 by (rewrite <- (map_length dv ds2), DV2, map_length; reflexivity).
  eapply evaluates_call with (vs := elems (jo_arr x) ++ map snd (jo_props x))
    (Q := fun vs' avs => exists ws1 ws2, vs' = ws1 ++ ws2 /\ length ws1 = length (elems (jo_arr x)) /\ length ws2 = length (jo_props x) /\
            avs = [VPos (PList (map PV ws1)); VKeys (combine (map fst (jo_props x)) (map PV ws2))]); [exact A| |].
  - cbn [e_each]. eapply evals_bind; [exact list_arg|].
    intros ws1 y [L1 ->]. rewrite <- (app_nil_r (map snd (jo_props x))).
    eapply evals_bind with (Q1 := fun ws2 xs => exists y, xs = [y] /\ length ws2 = length (jo_props x) /\ y = VKeys (combine (map fst (jo_props x)) (map PV ws2))).
    + rewrite <- (app_nil_r (map snd (jo_props x))). eapply evals_bind with (Q1 := fun ws2 y => length ws2 = length (jo_props x) /\ y = VKeys (combine (map fst (jo_props x)) (map PV ws2))).
      * intros G X. destruct (evals_dict H float_repr ds2 hs2 F2 ltac:(rewrite DK2; exact FH2) NDH2 G X) as [ws [N [y [E [RS [L ->]]]]]].
        exists ws, N, (VKeys (combine (map fst (jo_props x)) (map PV ws))). unfold ReprFacts3.arg_eval. cbn [fst snd]. unfold e_bind. unfold dict_of. rewrite E, DK2, star_keys_names. rewrite <- DV2. rewrite <- LD2. auto.
      * intros ws2 y [L ->]. rewrite <- (app_nil_r []). eapply evals_bind; [apply evals_ret|]. intros ws3 xs [-> ->]. eapply evals_mono; [apply evals_ret|]. intros ws4 z [-> ->]. rewrite !app_nil_r. eauto.
    + intros ws2 xs [y [-> [L2 ->]]]. eapply evals_mono; [apply evals_ret|]. intros ws3 z [-> ->]. exists ws1, ws2. rewrite app_nil_r. auto.
  - cbn beta. intros vs' avs [ws1 [ws2 [-> [L1 [L2 ->]]]]] G X C ND. destruct (split_copies G _ _ _ _ L1 C) as [C1 C2].
    destruct (list_object x G ws1 ws2 NM NH C1 C2) as [y Y]. cbn [keyed positional]. rewrite app_nil_r. exists y, (combine (map fst (jo_props x)) ws2). split; [|exact Y].
    apply keywords_distinct; [exact (proj1 NM)|intros n _ []|rewrite map_length; exact L2].
Qed.
End List_.
End Calls.
