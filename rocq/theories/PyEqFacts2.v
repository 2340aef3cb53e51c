(** The pairing of what was dumped and what loads returned, for C73. *)
From Coq Require Import List NArith ZArith Bool Arith Lia.
From Verif Require Import Base Dict ModelTags SpecNumber SpecArray ModelArray ArrayFacts ArrayFacts2 ArrayFacts3 ModelValue ValueFacts KeyFacts ModelObject
  ModelMap ModelBuffer BufferFacts ModelHeap ModelDecode ModelEncode SpecEncode SpecFail SpecGraph HashFacts ModelTyped SpecTyped ModelViewEq SpecViewEq Prop_ViewEq
  ModelEq SpecEq EqFacts ModelMixedEq SpecMixedEq MixedEqFacts ModelPyEq SpecPyEq PyEqFacts.
Import ListNotations.
Open Scope nat_scope.

(** * Moved objects *)
Section Moved.
Variable n : nat.
Notation moved := (moved n).
Lemma moved_items l k : items_abs (map (fun p : Z * val => (fst p, moved (snd p))) l) k = map (option_map moved) (items_abs l k).
Proof.
  unfold items_abs. rewrite map_map. apply map_ext. intros i. induction l as [|[x v] l IH]; cbn [dget map fst snd option_map]; auto.
  destruct (Z.eqb (Z.of_nat i) x); auto.
Qed.
Lemma moved_aabs a : aabs (moved_arr n a) = map (option_map moved) (aabs a).
Proof. destruct a; cbn [moved_arr aabs d_items]; auto. unfold sabs. cbn [s_items]. apply moved_items. Qed.
Lemma moved_used l : count_used (map (option_map moved) l) = count_used l.
Proof. induction l as [|[v|] l IH]; auto; cbn [map option_map]; rewrite !count_used_cons, IH; auto. Qed.
Lemma moved_arr_ok a : arr_ok a -> arr_ok (moved_arr n a).
Proof.
  destruct a as [d|s]; cbn [moved_arr arr_ok].
  - unfold dense_ok. cbn [d_items d_used]. rewrite moved_used. auto.
  - unfold sparse_ok. cbn [s_items s_sorted s_max].
    assert (E : map fst (map (fun p : Z * val => (fst p, moved (snd p))) (s_items s)) = map fst (s_items s)) by (rewrite map_map; apply map_ext; auto).
    rewrite E. intros (A & B & C & D). split; auto. split; auto. split; auto. destruct (s_sorted s); cbn [sorted_ok] in *; auto. rewrite E. auto.
Qed.
End Moved.

Lemma last_head {A} (l : list A) : forall x d, last (x :: l) d = last l x.
Proof. induction l as [|y l IH]; intros x d; auto. change (last (x :: y :: l) d) with (last (y :: l) d). rewrite !IH. auto. Qed.
(** The elements of two arrays, from their entries: neither array ends in a hole. *)
Lemma entries_elements (P : val -> val -> Prop) la : forall lb i d d', last la (Some d) <> None -> last lb (Some d') <> None ->
  Forall2 (fun p q : Z * val => fst p = fst q /\ P (snd p) (snd q)) (entries_from i la) (entries_from i lb) ->
  Forall2 (fun x y => match x, y with Some v, Some w => P v w | None, None => True | _, _ => False end) la lb.
Proof.
  assert (KEYS : forall (l : list (option val)) i k v, In (k, v) (entries_from i l) -> (i <= k)%Z).
  { induction l as [|[u|] l IH]; intros i k v; cbn [entries_from]; [intros []| |]; [intros [E|I]; [injection E; lia|]|intros I]; apply IH in I; lia. }
  assert (EMPTY : forall (l : list (option val)) i d, last l (Some d) <> None -> entries_from i l = [] -> l = []).
  { induction l as [|[u|] l IH]; intros i d L E; auto; [discriminate|]. cbn [entries_from] in E. destruct l as [|e l]; [elim L; reflexivity|].
    exfalso. assert (e :: l = []) by (eapply IH; [|exact E]; exact L). discriminate. }
  induction la as [|[v|] la IH]; intros [|[w|] lb] i d d' La Lb F; cbn [entries_from] in F.
  - constructor.
  - inversion F.
  - exfalso. inversion F as [E1 E2|]. assert (X : None :: lb = []) by (apply (EMPTY _ i d' Lb); cbn [entries_from]; auto). discriminate.
  - inversion F.
  - inversion F as [|? ? ? ? [_ Q] F']; subst. constructor; auto. apply (IH _ (i + 1)%Z v w); auto.
    + rewrite <- (last_head la (Some v) (Some d)). auto.
    + rewrite <- (last_head lb (Some w) (Some d')). auto.
  - exfalso. inversion F as [|? [k x] ? ? [E _] F' EQ1 EQ2]; subst. cbn [fst] in E. subst k. 
    assert (In (i, x) (entries_from (i + 1) lb)) as I by (rewrite <- EQ2; left; auto). apply KEYS in I. lia.
  - exfalso. inversion F as [E1 E2|]. assert (X : None :: la = []) by (apply (EMPTY _ i d La); cbn [entries_from]; auto). discriminate.
  - exfalso. inversion F as [|[k x] ? ? ? [E _] F' EQ1 EQ2]; subst. cbn [fst] in E. subst k.
    assert (In (i, x) (entries_from (i + 1) la)) as I by (rewrite <- EQ1; left; auto). apply KEYS in I. lia.
  - constructor; auto. apply (IH _ (i + 1)%Z d d'); auto.
    + destruct la; [elim La; reflexivity|exact La].
    + destruct lb; [elim Lb; reflexivity|exact Lb].
Qed.

(** Index keys and names are apart. *)
Lemma split_items (Q : val -> val -> Prop) e : forall e' p p',
  Forall2 (fun a b : val * val => fst a = fst b /\ Q (snd a) (snd b))
    (map (fun p : Z * val => (VInt (fst p), snd p)) e ++ map (fun p : list N * val => (VStr (fst p), snd p)) p)
    (map (fun p : Z * val => (VInt (fst p), snd p)) e' ++ map (fun p : list N * val => (VStr (fst p), snd p)) p') ->
  Forall2 (fun a b : Z * val => fst a = fst b /\ Q (snd a) (snd b)) e e' /\
  Forall2 (fun a b : val * val => fst a = fst b /\ Q (snd a) (snd b)) (map (fun p : list N * val => (VStr (fst p), snd p)) p) (map (fun p : list N * val => (VStr (fst p), snd p)) p').
Proof.
  induction e as [|[i v] e IH]; intros [|[i' w] e'] p p' F; cbn [map app fst snd] in F.
  - split; auto.
  - destruct p; inversion F as [|? ? ? ? [E _] _]. discriminate.
  - destruct p'; inversion F as [|? ? ? ? [E _] _]. discriminate.
  - inversion F as [|? ? ? ? [E Qv] F']; subst. cbn [fst snd] in *. injection E as ->. destruct (IH _ _ _ F'). split; auto.
Qed.

Section Pair.
Variable narrow : nat -> N -> option N.
Variable cast32 : N -> N.
Variable widen : nat -> N -> N.
Variable float_of : Z -> option N.
Variable py312 : bool.
Variables H h : heap.
Variable cfg : ecfg.
Variable dcfg : ModelDecode.dcfg.
Variables root v' : val.
Variable rep : val -> val -> Prop.
Variable R : nat -> val -> Prop.
Hypothesis WF : wf_graph H cfg root.
Hypothesis REP : forall v v0, rep v v0 -> equal_value H root v v0.
Hypothesis AB : able H cfg dcfg false rep root.
Hypothesis CM : comparable narrow cast32 widen float_of py312 H cfg dcfg root.
Hypothesis CA : carries H h cfg dcfg false rep root v' R.
Notation n := (length H).
Notation G := (beside H h).
Notation moved := (moved n).
Notation leaf := (leaf_op cast32 widen py312 G).
Notation image := (image rep R).
Notation within := (within H root).

Lemma G_old o : o < n -> nth_error G o = nth_error H o.
Proof. intros L. unfold beside. apply nth_error_app1. auto. Qed.
Lemma G_new j : nth_error G (n + j) = option_map (moved_obj n) (nth_error h j).
Proof. unfold beside. rewrite nth_error_app2 by lia. replace (n + j - n) with j by lia. apply nth_error_map. Qed.
Lemma within_occurs v : within v -> occurs H root v.
Proof. induction 1; [constructor|econstructor; eauto]. Qed.
Lemma within_get o : within (VRef o) -> exists x, nth_error H o = Some x /\ o < n /\ wf_obj H cfg x /\
  comparable_obj narrow cast32 widen float_of py312 H cfg dcfg x.
Proof.
  intros W. pose proof (within_occurs _ W) as O. destruct (WF _ O) as (x & Hx & Wx). exists x. split; auto. split; [apply nth_error_Some; congruence|].
  split; auto. eapply (proj2 CM); eauto.
Qed.
Lemma backing_old b : b < n -> backing_of G b = backing_of H b.
Proof. intros L. unfold backing_of. rewrite G_old; auto. Qed.
Lemma backing_new k : backing_of G (n + k) = backing_of h k.
Proof. unfold backing_of. rewrite G_new. destruct (nth_error h k) as [[]|]; auto. Qed.

(** * Containers and what is paired *)
Definition container (x : obj) : bool :=
  match x with OMap _ | OSet _ | OObject _ | OArray _ | OError _ _ _ _ | ODict _ | OPySet _ => true | _ => false end.
Definition loaded_for (a b : nat) : Prop :=
  exists j x, a = n + j /\ within (VRef b) /\ R b (VRef j) /\ nth_error H b = Some x /\ container x = true.
(** [K]: which objects of the original graph *)
Definition paired (K : nat -> Prop) (a b : nat) : Prop := (loaded_for a b /\ K b) \/ (loaded_for b a /\ K a).
Lemma loaded_old a b : loaded_for a b -> n <= a /\ b < n.
Proof. intros (j & x & -> & _ & _ & Hx & _). split; [lia|]. apply nth_error_Some. congruence. Qed.
Lemma paired_fun K a b c : one_to_one R -> paired K a b -> paired K a c -> b = c.
Proof.
  intros ONE [[P _]|[P _]] [[Q _]|[Q _]]; pose proof (loaded_old _ _ P); pose proof (loaded_old _ _ Q); try lia.
  - destruct P as (j & x & -> & _ & R1 & _), Q as (j' & x' & E & _ & R2 & _). assert (j' = j) as -> by lia. eapply (proj2 ONE); eauto.
  - destruct P as (j & x & -> & _ & R1 & _), Q as (j' & x' & -> & _ & R2 & _). pose proof (proj1 ONE _ _ _ R1 R2) as E. congruence.
Qed.

(** Hashing an original in the joint memory *)
Lemma hash_old v : within v -> dict_key G v = dict_key H v.
Proof.
  intros W. unfold dict_key. rewrite !hash_S. destruct v; auto. destruct (within_get _ W) as (x & Hx & L & Wx & C). rewrite G_old, Hx by auto.
  destruct x; try contradiction; auto. destruct Wx as (_ & y & Hy & _). assert (buffer < n) by (apply nth_error_Some; congruence). rewrite backing_old; auto.
Qed.

(** The object that was written for an object: itself, or an equal one. *)
Definition alike (x x0 : obj) : Prop :=
  match x, x0 with
  | ODate d, ODate d' => d = d'
  | OSharedRef i, OSharedRef i' | OShared i, OShared i' | OTransfer i, OTransfer i' => i = i'
  | ORegExp s f, ORegExp s' f' => s = s' /\ f = f'
  | OBuffer b, OBuffer b' => jb_data b' = jb_data b /\ jb_max b' = jb_max b /\ jb_resizable b' = jb_resizable b
  | OView b v, OView b' w => vw_tag v = vw_tag w /\ snd (view_memory (backing_of H b) v) = snd (view_memory (backing_of H b') w)
  | _, _ => False
  end.
Lemma written o x v0 : within (VRef o) -> nth_error H o = Some x -> equal_value H root (VRef o) v0 ->
  v0 = VRef o \/ exists o0 x0, v0 = VRef o0 /\ nth_error H o0 = Some x0 /\ alike x x0.
Proof.
  intros W Hx [<-|(N & E & O0)]; auto. right. destruct (within_get _ W) as (y & Hy & L & Wx & C). rewrite Hx in Hy. injection Hy as <-.
  destruct (hash_key_eq H _ _ N E) as [o0 ->]. exists o0. destruct (WF _ O0) as (x0 & Hx0 & W0). exists x0. split; auto. split; auto.
  pose proof (hash_key_buffer H o o0 x N E Hx) as B.
  assert (NC : container x = false).
  { destruct x; auto; exfalso; apply N; unfold hash_key; rewrite hash_S, Hx; reflexivity. }
  destruct x; try discriminate; try contradiction; try (rewrite Hx0 in B; injection B as ->; cbn; auto; fail).
  - destruct B as (b0 & B & ?). rewrite Hx0 in B. injection B as ->. cbn. tauto.
  - unfold hash_key in E, N. rewrite !hash_S in E. rewrite hash_S in N. cbn [type_of] in *. rewrite Hx, Hx0 in *. cbv zeta in *.
    destruct (bk_hashable (backing_of H buffer)); [|congruence]. destruct (item_keys _ _ _) as [ks|]; [|congruence]. clear N.
    destruct x0; try discriminate;
      try (match type of E with context [hash H ?a ?b] => destruct (hash H a b); discriminate end);
      try (match type of E with context [jb_readonly ?a] => destruct (jb_readonly a); discriminate end).
    + destruct (bk_hashable (backing_of H buffer0)); [|discriminate]. destruct (item_keys (vw_tag v0) _ _); [|discriminate]. injection E as E1 E2 E3. cbn. auto.
    + destruct tuple; [|discriminate]. destruct l as [|a l]; [discriminate|]. cbn [fold_right] in E.
      destruct (hash H (length H) a); [destruct (fold_right _ _ _)|]; discriminate.
Qed.

(** * Values *)
Section Kids.
Lemma num_same a b : same_number a b -> a <> NaN -> num_eqb a b = true /\ num_eqb b a = true /\ hnumber a = hnumber b.
Proof.
  intros S N. assert (S' : same_number b a) by (apply num_key_eq; symmetry; apply num_key_eq; auto).
  assert (N' : b <> NaN) by (intros ->; destruct a; auto). repeat split; try (apply num_eqb_spec; auto).
  apply num_key_eq in S. destruct a, b; cbn [hnumber num_key] in *; try congruence;
    repeat match goal with X : context [canon ?m ?e] |- _ => destruct (canon m e) end; congruence.
Qed.
Variable K : nat -> Prop.
Definition matched (v u : val) : Prop :=
  mval G leaf (paired K) u v /\ mval G leaf (paired K) v u /\ (dict_key G u = None \/ dict_key G u = dict_key G v).
Lemma same_nums v u a b : number_of v = Some a -> number_of u = Some b -> same_number a b -> a <> NaN -> matched v u.
Proof.
  intros A B S N. destruct (num_same _ _ S N) as (E1 & E2 & E3).
  assert (LF : forall v u a b, number_of v = Some a -> number_of u = Some b -> leaf v u = num_eqb a b).
  { clear. intros v u a b A B. destruct v; try discriminate; destruct u; try discriminate; unfold leaf_op; rewrite A, B; auto. }
  assert (ML : forall v u a b, number_of v = Some a -> number_of u = Some b -> num_eqb a b = true -> mval G leaf (paired K) v u).
  { intros x y p q P Q T. assert (leaf x y = true) by (rewrite (LF _ _ _ _ P Q); auto). unfold mval. destruct x; auto. discriminate. }
  split; [eapply ML; eauto|]. split; [eapply ML; eauto|]. right.
  assert (HN : forall v a, number_of v = Some a -> dict_key G v = hnumber a).
  { clear. intros v a A. unfold dict_key. rewrite hash_S. destruct v; try discriminate; injection A as <-; auto.
    cbn [hnumber]. destruct b; reflexivity. }
  rewrite (HN _ _ A), (HN _ _ B). auto.
Qed.
Lemma same_value_refl' m e : same_number (Finite m e) (Finite m e).
Proof. apply num_key_eq. reflexivity. Qed.
Lemma matched_leaf v v0 u : (forall o, v <> VRef o) -> (forall b, v = VFloat b -> ieee b <> NaN) -> equal_value H root v v0 -> leaf_image v0 u -> matched v (moved u).
Proof.
  intros NR NAN E LI.
  assert (KK : match v with VFloat b => exists b0, v0 = VFloat b0 /\ same_number (ieee b) (ieee b0) | VRef _ => False | _ => v0 = v end).
  { destruct E as [<-|(N & E & _)].
    - destruct v; auto; [|elim (NR oid); auto]. exists bits. split; auto. apply num_key_eq. reflexivity.
    - pose proof (hash_key_eq H _ _ N E) as KK. destruct v; auto. elim (NR oid); auto. }
  assert (SAME : forall w, leaf w w = true -> (forall o, w <> VRef o) -> matched w (moved w)).
  { intros w LW NW. assert (moved w = w) as -> by (destruct w; auto; elim (NW oid); auto). unfold matched, mval. destruct w; auto. elim (NW oid); auto. }
  destruct v; try (subst v0; inversion LI; subst; clear LI).
  1-3: (apply SAME; [reflexivity|discriminate]).
  - apply (same_nums (VBool b) (VBool b) _ _ eq_refl eq_refl); [apply same_value_refl'|discriminate].
  - apply (same_nums (VInt z) (VInt z) _ _ eq_refl eq_refl); [apply same_value_refl'|discriminate].
  - match goal with D : double_is _ _ |- _ => destruct D as (_ & D & _) end. 
    apply (same_nums (VInt z) (VFloat b) _ _ eq_refl eq_refl); [|discriminate]. apply num_key_eq. symmetry. apply num_key_eq. auto.
  - destruct KK as (b0 & -> & S). inversion LI; subst. apply (same_nums (VFloat bits) (VFloat b0) _ _ eq_refl eq_refl); auto. 
  - apply SAME; [|discriminate]. cbn. apply listN_eqb_spec. auto.
  - contradiction.
Qed.
Lemma old_backing b w o : nth_error H o = Some (OView b w) -> occurs H root (VRef o) -> view_ok w /\ b < n /\ exists y, nth_error H b = Some y /\ buffer_like y /\ occurs H root (VRef b).
Proof.
  intros Ho O. destruct (WF _ O) as (x & Hx & Wx). rewrite Ho in Hx. injection Hx as <-. destruct Wx as (V & y & Hy & B).
  split; auto. split; [apply nth_error_Some; congruence|]. exists y. repeat split; auto. econstructor; eauto. left. auto.
Qed.
(** The loaded buffer of a view is writable. *)
Lemma loaded_backing o b w v0 k : nth_error H o = Some (OView b w) -> occurs H root (VRef o) -> rep (VRef b) (VRef v0) -> R v0 (VRef k) ->
  exists bf, nth_error h k = Some (OBuffer bf) /\ jb_readonly bf = false.
Proof.
  intros Ho O E I. apply REP in E. destruct (proj2 CA _ _ I) as (y & Hy & OI).
  destruct (AB _ _ O Ho) as ((d & Hd & _) & _). unfold bk_data, backing_of in Hd. destruct (nth_error H b) as [z|] eqn:Hb; [|discriminate].
  assert (match y with OBuffer _ | OBytes _ | OByteArray _ => True | _ => False end) as By.
  { destruct E as [E|(N & E & O0)].
    - injection E as <-. rewrite Hb in Hy. injection Hy as <-. destruct z; try discriminate; exact Logic.I.
    - pose proof (hash_key_buffer H _ _ _ N E Hb) as K0. destruct z; try discriminate; try contradiction.
      + destruct K0 as (b1 & K1 & _). rewrite Hy in K1. injection K1 as ->. exact Logic.I.
      + rewrite Hy in K0. injection K0 as ->. exact Logic.I. }
  destruct y; try contradiction; destruct OI as (j & z' & EQ & Hj & CI); injection EQ as <-; destruct z'; try contradiction; eexists; split; eauto; cbn [cell_image] in CI.
  - rewrite CI. destruct (keeps_resizable cfg _); auto.
  - unfold plain_copy in CI. rewrite CI. auto.
  - unfold plain_copy in CI. rewrite CI. auto.
Qed.
Lemma matched_alike o x o0 x0 u : within (VRef o) -> nth_error H o = Some x -> nth_error H o0 = Some x0 -> alike x x0 -> occurs H root (VRef o0) -> R o0 u ->
  matched (VRef o) (moved u).
Proof.
  intros W Hx Hx0 A O0 I. destruct (within_get _ W) as (y & Hy & L & Wx & C). rewrite Hx in Hy. injection Hy as <-.
  destruct (proj2 CA _ _ I) as (y & Hy & OI). rewrite Hx0 in Hy. injection Hy as <-.
  assert (NE : forall j, (n + j =? o) = false /\ (o =? n + j) = false) by (intros j; rewrite !Nat.eqb_neq; lia).
  destruct x; try contradiction; destruct x0; try contradiction; cbn [alike] in A; destruct OI as (j & y & -> & Hj & CI); destruct y; try contradiction; cbn [cell_image] in CI;
    cbn [SpecPyEq.moved]; unfold matched, mval, followed, is_decorated, dict_key, leaf_op, other_eq; rewrite !hash_S, !G_new, !G_old, Hx, Hj by auto; cbn [option_map moved_obj andb].
  - destruct A as [<- <-]. destruct CI as [-> ->]. cbn [comparable_obj] in C. change 0x1FF%N with (N.ones 9). rewrite N.land_ones, N.mod_small by exact C.
    rewrite (proj2 (listN_eqb_spec source source) eq_refl), N.eqb_refl. auto.
  - subst. destruct CI as (bts & T & D). cbn [comparable_obj] in C. specialize (C _ T). rewrite D in C. injection C as ->. rewrite N.eqb_refl. auto.
  - destruct A as (A1 & A2 & A3). destruct Wx as (_ & _ & W2). cbn [comparable_obj] in C. 
    assert (jb_data b1 = jb_data b /\ jb_max b1 = jb_max b /\ jb_resizable b1 = jb_resizable b /\ jb_readonly b1 = false) as (B1 & B2 & B3 & B4).
    { subst b1. unfold keeps_resizable. rewrite A3. destruct (jb_resizable b) eqn:RB; [rewrite (C eq_refl)|]; cbn; rewrite ?A1, ?A2; auto. rewrite W2; auto. }
    rewrite B4. split; [apply C63_buffers; auto|]. split; [apply C63_buffers; auto|]. auto.
  - subst. rewrite N.eqb_refl. auto.
  - subst. rewrite N.eqb_refl. auto.
  - destruct A as (A1 & A2). cbv zeta. destruct (old_backing _ _ _ Hx (within_occurs _ W)) as (V1 & L1 & _).
    destruct (old_backing _ _ _ Hx0 O0) as (V2 & L2 & z & Hz & BZ & OZ).
    destruct CI as ((w0 & E0 & R0) & T & OF & ME & _ & V3). pose proof (REP _ _ E0) as E1.
    assert (exists bf, nth_error h buffer1 = Some (OBuffer bf) /\ jb_readonly bf = false) as (bf & Hbf & RO).
    { assert (exists w, w0 = VRef w) as [w ->] by (destruct E1 as [<-|E1]; [eauto|apply (hash_key_eq H _ _ (proj1 E1) (proj1 (proj2 E1)))]).
      eapply loaded_backing; eauto. }
    rewrite backing_new, backing_old by auto.
    assert (BK : backing_of h buffer1 = BkBuffer bf) by (unfold backing_of; rewrite Hbf; auto).
    destruct (NE j) as [N1 N2]. rewrite N1, N2.
    destruct (C63_shows narrow cast32 widen float_of py312 (backing_of H buffer) v V1) as (l & SH & _).
    destruct (C63_same_bytes narrow cast32 widen float_of py312 (backing_of H buffer) v (backing_of h buffer1) v1 l V1 V3) as (_ & EQ); auto; [congruence|rewrite ME; auto|].
    specialize (EQ (C l SH)). split; [rewrite C63_symmetric; auto|]. split; auto. left. rewrite BK. cbn [bk_hashable bk_readonly]. rewrite RO. auto.
  - subst. rewrite N.eqb_refl. auto.
Qed.
Lemma matched_object o v0 u : within (VRef o) -> K o -> rep (VRef o) v0 -> (match v0 with VRef o => R o u | _ => leaf_image v0 u end) -> matched (VRef o) (moved u).
Proof.
  intros W KO E I. apply REP in E. destruct (within_get _ W) as (x & Hx & L & Wx & C).
  destruct (written o x v0 W Hx E) as [->|(o0 & x0 & -> & Hx0 & A)].
  - destruct (container x) eqn:CX.
    + destruct (proj2 CA _ _ I) as (y & Hy & OI). rewrite Hx in Hy. injection Hy as <-.
      assert (exists j y, u = VRef j /\ nth_error h j = Some y /\ cell_image H h cfg dcfg false rep R x y) as (j & y & -> & Hj & CI).
      { destruct x; auto. discriminate. }
      cbn [SpecPyEq.moved]. assert (LF : loaded_for (n + j) o) by (exists j, x; auto).
      assert (FO : followed G (n + j) o = true /\ followed G o (n + j) = true /\ dict_key G (VRef (n + j)) = None).
      { unfold followed, is_decorated, dict_key. rewrite hash_S, G_new, G_old, Hx, Hj by auto. cbn [option_map].
        destruct x; try discriminate; destruct y; try contradiction; cbn [moved_obj]; auto. }
      destruct FO as (F1 & F2 & F3). unfold matched, mval. rewrite F1, F2. split; [left; auto|]. split; [right; auto|]. auto.
    + apply (matched_alike o x o x u W Hx Hx); auto using within_occurs. destruct x; try discriminate; try contradiction; cbn; auto.
  - assert (O0 : occurs H root (VRef o0)) by (destruct E as [E|(_ & _ & O0)]; auto; rewrite <- E; apply within_occurs; auto).
    exact (matched_alike o x o0 x0 u W Hx Hx0 A O0 I).
Qed.
Lemma matched_image v u : (v = VNone \/ within v) -> (forall o, v = VRef o -> K o) -> image v u -> matched v (moved u).
Proof.
  intros W KO (v0 & E & I). destruct v; try (destruct W as [W|W]; [discriminate|]; apply (matched_object oid v0); auto; fail); apply REP in E; apply matched_leaf with v0; auto; try discriminate;
    try (intros bb [= <-]; destruct W as [W|W]; [discriminate|]; apply (proj1 CM); auto; fail);
    (destruct v0; auto; exfalso; destruct E as [E|(N & E & _)]; [discriminate|]; pose proof (hash_key_eq H _ _ N E) as KK; cbn in KK; try discriminate; destruct KK as (? & KK & _); discriminate).
Qed.

(** * Nodes *)
Lemma F2_map {A B C D} (P : A -> B -> Prop) (Q : C -> D -> Prop) (f : A -> C) (g : B -> D) l m :
  Forall2 P l m -> (forall a b, In a l -> In b m -> P a b -> Q (f a) (g b)) -> Forall2 Q (map f l) (map g m).
Proof. induction 1; intros X; cbn [map]; constructor; auto; [apply X; cbn; auto|]. apply IHForall2. intros. apply X; cbn; auto. Qed.
Lemma F2_flip {A B} (P : A -> B -> Prop) l m : Forall2 P l m -> Forall2 (fun b a => P a b) m l.
Proof. induction 1; constructor; auto. Qed.
Lemma F2_same {A B} (P Q : A -> B -> Prop) l m : Forall2 P l m -> (forall a b, In a l -> In b m -> P a b -> Q a b) -> Forall2 Q l m.
Proof. intros F X. rewrite <- (map_id l), <- (map_id m). eapply F2_map; eauto. Qed.

Lemma flat_in k v l : In (k, v) l -> In k (flat l) /\ In v (flat l).
Proof. intros I. unfold flat. split; apply in_flat_map; exists (k, v); cbn; auto. Qed.
Lemma all_matched l m : (forall v, In v l -> within v /\ forall o, v = VRef o -> K o) -> Forall2 image l m -> Forall2 matched l (map moved m).
Proof. intros W F. rewrite <- (map_id l). eapply F2_map; eauto. intros a b Ia _ I. destruct (W a Ia). apply matched_image; auto. Qed.
Definition pairs_matched (p q : val * val) : Prop := matched (fst p) (fst q) /\ matched (snd p) (snd q).
Lemma all_pairs l m : (forall v, In v (flat l) -> within v /\ forall o, v = VRef o -> K o) -> Forall2 (pair_image rep R) l m -> Forall2 pairs_matched l (map (moved_pair n) m).
Proof.
  intros W F. rewrite <- (map_id l). eapply F2_map; eauto. intros [k v] [k' u] Ia _ [I1 I2]. destruct (flat_in _ _ _ Ia) as [J1 J2]. destruct (W _ J1), (W _ J2). split; apply matched_image; auto.
Qed.
Lemma matched_mval l m : Forall2 matched l m -> Forall2 (mval G leaf (paired K)) l m /\ Forall2 (mval G leaf (paired K)) m l.
Proof. intros F. split; [|apply F2_flip]; (eapply F2_same; [exact F|]); intros a b _ _ (A & B & _); auto. Qed.
Lemma matched_mpair l m : Forall2 pairs_matched l m -> Forall2 (mpair G leaf (paired K)) l m /\ Forall2 (mpair G leaf (paired K)) m l.
Proof. intros F. split; [|apply F2_flip]; (eapply F2_same; [exact F|]); intros [a b] [c d] _ _ ((A & B & _) & (A' & B' & _)); split; auto. Qed.
Lemma matched_hole v u : matched v u -> v = VHole <-> u = VHole.
Proof.
  intros (A & B & _). split; intros ->; unfold mval in *.
  - destruct u; cbn in A; auto; try discriminate.
  - destruct v; cbn in B; auto; try discriminate.
Qed.
Lemma matched_props (x y : jsobj val) : (forall v, In v (flat (named_items x)) -> within v /\ forall o, v = VRef o -> K o) -> Forall2 (prop_image rep R) (named_items x) (named_items y) ->
  Forall2 (fun p q => fst p = fst q /\ matched (snd p) (snd q)) (jo_props x) (jo_props (moved_jsobj n y)).
Proof.
  unfold named_items. intros W F. cbn [moved_jsobj jo_props].
  assert (F' : Forall2 (fun p q : list N * val => prop_image rep R (VStr (fst p), snd p) (VStr (fst q), snd q)) (jo_props x) (jo_props y)).
  { clear W. revert F. generalize (jo_props x) as l, (jo_props y) as m. induction l as [|p l IH]; intros [|q m] F; inversion F; subst; constructor; auto. }
  rewrite <- (map_id (jo_props x)). eapply F2_map; [exact F'|]. intros [s v] [s' u] Ip _ [E Im]. cbn [fst snd] in *. injection E as ->. split; auto.
  destruct (W v). { apply (flat_in (VStr s') v). apply in_map_iff. exists (s', v). auto. }
  apply matched_image; auto.
Qed.
Definition elem_matched (x y : option val) : Prop := match x, y with Some v, Some w => matched v w | None, None => True | _, _ => False end.
Lemma objects_agree x y : arr_ok (jo_arr x) -> arr_ok (jo_arr y) -> NoDup (map fst (jo_props x)) ->
  Forall2 elem_matched (aabs (jo_arr x)) (aabs (jo_arr y)) -> Forall2 (fun p q => fst p = fst q /\ matched (snd p) (snd q)) (jo_props x) (jo_props y) ->
  agrees (paired K) (mobjects G leaf leaf x y) /\ agrees (paired K) (mobjects G leaf leaf y x).
Proof.
  intros Ox Oy ND E P. split; apply mobjects_agrees; auto.
  - eapply F2_same; [exact E|]. intros [a|] [b|] _ _ M; cbn in *; auto. apply M.
  - eapply F2_same; [exact P|]. intros [a v] [b w] _ _ [M1 M2]. split; auto. apply M2.
  - assert (map fst (jo_props y) = map fst (jo_props x)) as ->; auto. clear -P. induction P as [|p q l m [A _] F IH]; cbn; f_equal; auto.
  - apply F2_flip in E. eapply F2_same; [exact E|]. intros [a|] [b|] _ _ M; cbn in *; auto. apply M.
  - apply F2_flip in P. eapply F2_same; [exact P|]. intros [a v] [b w] _ _ [M1 M2]. split; auto. apply M2.
Qed.
Lemma objects_agree' x y (A B : Prop) : arr_ok (jo_arr x) -> arr_ok (jo_arr y) -> NoDup (map fst (jo_props x)) ->
  Forall2 elem_matched (aabs (jo_arr x)) (aabs (jo_arr y)) -> Forall2 (fun p q => fst p = fst q /\ matched (snd p) (snd q)) (jo_props x) (jo_props y) -> B ->
  agrees (paired K) (mobjects G leaf leaf y x) /\ (agrees (paired K) (mobjects G leaf leaf x y) \/ A) /\ B.
Proof. intros. destruct (objects_agree x y); auto. Qed.
End Kids.
(** The objects directly inside an object *)
Definition kid_of (b p : nat) : Prop := exists x, nth_error H b = Some x /\ In (VRef p) (children x).
Notation mixed := (mixed_eq hkey_eqb G (dict_key G) leaf leaf).
Lemma pair_agrees a b : loaded_for a b -> agrees (paired (kid_of b)) (mixed a b) /\ (agrees (paired (kid_of b)) (mixed b a) \/ mixed b a = Done NotImpl) /\
  class_sub G a b = false /\ class_sub G b a = false.
Proof.
  intros (j & x & -> & W & I & Hx & CX). destruct (within_get _ W) as (x0 & Hx0 & L & Wx & C). rewrite Hx in Hx0. injection Hx0 as <-.
  destruct (proj2 CA _ _ I) as (y & Hy & OI). rewrite Hx in Hy. injection Hy as <-.
  assert (exists y, nth_error h j = Some y /\ cell_image H h cfg dcfg false rep R x y) as (y & Hj & CI).
  { destruct x; try discriminate; destruct OI as (j' & y & E & Hj & CI); injection E as <-; eauto. }
  clear OI. assert (KIDS : forall v, In v (children x) -> within v /\ forall o, v = VRef o -> kid_of b o).
  { intros v Iv. split; [econstructor; eauto; intros ? ? ->; discriminate|]. intros o ->. exists x. auto. }
  unfold mixed_eq, class_sub. rewrite G_new, G_old, Hx, Hj by auto. cbn [option_map].
  destruct x; try discriminate; destruct y; try contradiction; cbn [moved_obj cell_image children] in *.
  - (* Map *)
    apply (all_pairs (kid_of b)) in CI; auto. pose proof (Forall2_length' _ _ _ CI) as LEN. rewrite !map_length in LEN. apply matched_mpair in CI as [F1 F2].
    assert (EM : map snd (map (fun p => (moved_svz n (fst p), moved_pair n (snd p))) m0) = map (moved_pair n) (map snd m0)) by (rewrite !map_map; auto).
    rewrite EM, !map_length, LEN, Nat.eqb_refl. cbn [negb]. split; [apply mall_agrees; [apply flat_mval; auto|constructor]|].
    split; [left; apply mall_agrees; [apply flat_mval; auto|constructor]|auto].
  - (* Set *)
    apply (all_matched (kid_of b)) in CI; auto. pose proof (Forall2_length' _ _ _ CI) as LEN. rewrite !map_length in LEN. apply matched_mval in CI as [F1 F2].
    assert (EM : map snd (map (fun p => (moved_svz n (fst p), moved (snd p))) m0) = map moved (map snd m0)) by (rewrite !map_map; auto).
    rewrite EM, !map_length, LEN, Nat.eqb_refl. cbn [negb]. split; [apply mall_agrees; [apply combine_mval; auto|constructor]|].
    split; [left; apply mall_agrees; [apply combine_mval; auto|constructor]|auto].
  - (* Object *)
    destruct Wx as (Ox & ND & _). destruct CI as (F & Oy & LY). cbn [comparable_obj] in C.
    apply split_items in F as [F1 F2]. apply objects_agree'; [exact Ox|apply moved_arr_ok; exact Oy|exact ND| | |auto].
    + cbn [moved_jsobj jo_arr]. rewrite moved_aabs.
      assert (F3 : Forall2 (fun x y => match x, y with Some v, Some w => matched (kid_of b) v (moved w) | None, None => True | _, _ => False end) (aabs (jo_arr o)) (aabs (jo_arr o0))).
      { apply (entries_elements _ _ _ 0%Z VUndef VUndef C LY). eapply F2_same; [exact F1|]. intros [i v] [i' w] Ii _ [E Im]. split; auto. cbn [snd] in *.
        destruct (KIDS v). { unfold own_items. apply (flat_in (VInt i) v). apply in_or_app. left. apply in_map_iff. exists (i, v). auto. }
        apply matched_image; auto. }
      rewrite <- (map_id (aabs (jo_arr o))). eapply F2_map; [exact F3|]. intros [v|] [w|] _ _ M; cbn in *; auto.
    + apply matched_props; auto. intros v Iv. apply KIDS. unfold own_items, flat in *. rewrite flat_map_app. apply in_or_app. auto.
  - (* Array *)
    destruct Wx as (Ox & ND & _ & NH & _). destruct CI as (F & P & Oy & NY). apply objects_agree'; [exact Ox|apply moved_arr_ok; exact Oy|exact ND| | |auto].
    + cbn [moved_jsobj jo_arr]. rewrite moved_aabs. unfold elements in F.
      assert (F3 : Forall2 (fun x y => image (of_elem x) (of_elem y)) (aabs (jo_arr o)) (aabs (jo_arr o0))).
      { clear -F. revert F. generalize (aabs (jo_arr o)) as l, (aabs (jo_arr o0)) as m. induction l as [|x l IH]; intros [|y m] F; inversion F; subst; constructor; auto. }
      rewrite <- (map_id (aabs (jo_arr o))). eapply F2_map; [exact F3|]. intros x y Ix Iy Im.
      assert (M : matched (kid_of b) (of_elem x) (moved (of_elem y))). { destruct (KIDS (of_elem x)). { apply in_or_app. left. unfold elements. apply in_map. auto. } apply matched_image; auto. }
      destruct x as [v|], y as [w|]; cbn [of_elem option_map elem_matched] in *; auto.
      * pose proof (proj2 (matched_hole _ _ _ M) eq_refl) as ->. rewrite Forall_forall in NH. apply (NH _ Ix). auto.
      * pose proof (proj1 (matched_hole _ _ _ M) eq_refl) as E. destruct w; try discriminate. auto.
    + apply matched_props; auto. intros v Iv. apply KIDS. apply in_or_app. right. unfold own_items, flat in *. rewrite flat_map_app. apply in_or_app. auto.
  - (* Error *)
    destruct CI as (-> & -> & -> & CI). destruct C as [C1 C2]. destruct message as [m|]; [|congruence].
    rewrite C1, (proj2 (listN_eqb_spec name name) eq_refl).
    assert (O : forall z, opt_str_eqb z z = true) by (intros [z|]; cbn; auto; apply listN_eqb_spec; auto).
    rewrite !O. cbn [andb]. assert (CAU : cause = VNone \/ In cause (children (OError name (Some m) stack cause))) by (destruct cause; cbn; auto).
    destruct (matched_image (kid_of b) cause cause0) as (M1 & M2 & _); auto.
    { destruct CAU as [->|CAU]; auto. right. apply KIDS. exact CAU. }
    { intros o ->. apply (KIDS (VRef o)); cbn; auto. }
    split; [apply mask_agrees; auto; constructor|]. split; [left; apply mask_agrees; auto; constructor|auto].
  - (* dict *)
    destruct C as [C1 C2]. assert (KS : forall k u, In (k, u) l -> within k) by (intros k u Ik; apply KIDS; apply (proj1 (flat_in k u l Ik))).
    assert (EK : map (fun p => dict_key G (fst p)) l = map (fun p => dict_key H (fst p)) l) by (apply map_ext_in; intros [k u] Ik; apply hash_old; eapply KS; eauto).
    apply (all_pairs (kid_of b)) in CI; auto. split; [|auto].
    assert (EM : map snd (map (fun p => (moved_svz n (fst p), moved_pair n (snd p))) m) = map (moved_pair n) (map snd m)) by (rewrite !map_map; auto).
    rewrite EM. apply map_agrees; [apply hkey_eqb_spec|apply matched_mpair; auto|rewrite EK; auto|].
    apply F2_flip in CI. eapply F2_same; [exact CI|]. intros [k u] [k' u'] _ _ [(_ & _ & M) _]. auto.
  - (* set *)
    destruct C as [C1 C2]. assert (EK : map (dict_key G) l = map (dict_key H) l) by (apply map_ext_in; intros k Ik; apply hash_old; apply KIDS; auto).
    apply (all_matched (kid_of b)) in CI; auto. split; [|auto].
    assert (EM : map snd (map (fun p => (moved_svz n (fst p), moved (snd p))) m) = map moved (map snd m)) by (rewrite !map_map; auto).
    rewrite EM. apply set_agrees; [apply hkey_eqb_spec|apply matched_mval; auto|rewrite EK; auto| |].
    + intros k Ik. rewrite hash_old by (apply KIDS; auto). auto.
    + apply F2_flip in CI. eapply F2_same; [exact CI|]. intros k u _ _ (_ & _ & M). auto.
Qed.

(** * The operator *)
Lemma loaded_bounds a b : loaded_for a b -> a < length G /\ b < length G.
Proof.
  intros (j & x & -> & _ & I & Hx & CX). destruct (proj2 CA _ _ I) as (y & Hy & OI). rewrite Hx in Hy. injection Hy as <-.
  assert (exists y, nth_error h j = Some y) as [y Hj]. { destruct x; try discriminate; destruct OI as (j' & y & E & Hj & _); injection E as <-; eauto. }
  unfold beside. rewrite app_length, map_length. assert (j < length h) by (apply nth_error_Some; congruence).
  assert (b < n) by (apply nth_error_Some; congruence). lia.
Qed.
Definition whole (a b : nat) : Prop := paired (fun _ => True) a b.
Lemma equals_matched t s :
  (forall a b, whole a b -> run (compare mixed (class_sub G) (S (length G)) t a b) s = (Returned true, s)) ->
  equals cast32 widen py312 G t (moved v') root s = (Returned true, s) /\ equals cast32 widen py312 G t root (moved v') s = (Returned true, s).
Proof.
  intros X. destruct (matched_image (fun _ => True) root v') as (M1 & M2 & _); auto; [right; constructor|exact (proj1 CA)|].
  assert (EQ : forall v w, mval G leaf whole v w -> equals cast32 widen py312 G t v w s = (Returned true, s)).
  { intros v w M. unfold equals. unfold mval in M. destruct v; try (rewrite M; auto; fail). destruct w; try (rewrite M; auto; fail).
    destruct (followed G oid oid0); [|rewrite M; auto]. apply X. auto. }
  split; apply EQ; auto.
Qed.
Lemma whole_mono K a b : paired K a b -> whole a b.
Proof. intros [[P _]|[P _]]; [left|right]; auto. Qed.
Lemma equals_shared t s : one_to_one R -> (forall o, ~ In (o, t) s) ->
  equals cast32 widen py312 G t (moved v') root s = (Returned true, s) /\ equals cast32 widen py312 G t root (moved v') s = (Returned true, s).
Proof.
  intros ONE FR. apply equals_matched. intros a b Wab. apply (sym_equal _ _ (length G) t s whole); auto.
  - intros c d [Q|Q]; [right|left]; auto.
  - intros c d e Q1 Q2. eapply paired_fun; eauto.
  - intros c d Q. assert (NE : c <> d) by (destruct Q as [[Q _]|[Q _]]; apply loaded_old in Q; lia). split; auto.
    destruct Q as [[Q _]|[Q _]]; destruct (loaded_bounds _ _ Q) as [LA LB]; split; auto; split; auto;
      destruct (pair_agrees _ _ Q) as (A1 & A2 & S1 & S2); split; auto.
    + left. eapply agrees_mono; [|exact A1]. apply whole_mono.
    + destruct A2 as [A2|A2]; [left|right; split; auto]; (eapply agrees_mono; [|eassumption]); apply whole_mono.
Qed.
(** [above a b]: the object b is somewhere inside a. *)
Lemma equals_tree (above : nat -> nat -> Prop) t s : (forall o o' j, R o (VRef j) -> R o' (VRef j) -> o = o') ->
  (forall a b c, above a b -> above b c -> above a c) -> (forall a, ~ above a a) -> (forall b p, occurs H root (VRef b) -> kid_of b p -> above b p) ->
  (forall o, ~ In (o, t) s) ->
  equals cast32 widen py312 G t (moved v') root s = (Returned true, s) /\ equals cast32 widen py312 G t root (moved v') s = (Returned true, s).
Proof.
  intros INJ TR IR KA FR. apply equals_matched. intros a b Wab.
  set (orig := fun c o => (c = o /\ c < n) \/ loaded_for c o).
  assert (FUN : forall c o o', orig c o -> orig c o' -> o = o').
  { intros c o o' [[-> L]|P] [[-> L']|Q]; auto; try (exfalso; (apply loaded_old in P || apply loaded_old in Q); lia).
    destruct P as (j & x & -> & _ & R1 & _), Q as (j' & x' & E & _ & R2 & _). assert (j' = j) as -> by lia. eapply INJ; eauto. }
  set (up := fun c d => exists oc od, orig c oc /\ orig d od /\ above oc od).
  apply (tree_equal _ _ (length G) t s whole up); auto.
  - intros c d [Q|Q]; [right|left]; auto.
  - intros c d _ (oc & od & O1 & O2 & A). rewrite (FUN _ _ _ O1 O2) in A. eapply IR; eauto.
  - assert (STEP : forall c d, loaded_for c d -> forall e f, paired (kid_of d) e f -> forall x, x = c \/ x = d \/ (up x c /\ up x d) -> up x e /\ up x f).
    { intros c d P e f Q x X.
      assert (OD : orig c d /\ orig d d) by (split; [right; auto|left; split; auto; apply loaded_old in P; lia]).
      assert (exists oe, orig e oe /\ orig f oe /\ above d oe) as (oe & O1 & O2 & A).
      { assert (OCC : occurs H root (VRef d)) by (destruct P as (? & ? & _ & W & _); apply within_occurs; auto).
        destruct Q as [[Q K]|[Q K]]; [exists f|exists e]; (split; [|split; [|apply KA; auto]]); try (right; exact Q); left; split; auto; apply loaded_old in Q; lia. }
      assert (exists ox, orig x ox /\ above ox oe) as (ox & O3 & A').
      { destruct X as [->|[->|[(ox & od & X1 & X2 & X3) _]]]; [exists d; tauto|exists d; tauto|]. exists ox. split; auto.
        rewrite (FUN _ _ _ X2 (proj1 OD)) in X3. eapply TR; eauto. }
      split; exists ox, oe; auto. }
    intros c d Q R'. assert (NE : c <> d) by (destruct Q as [[Q _]|[Q _]]; apply loaded_old in Q; lia). split; auto.
    destruct Q as [[Q _]|[Q _]]; destruct (loaded_bounds _ _ Q) as [LA LB]; split; auto; split; auto;
      destruct (pair_agrees _ _ Q) as (A1 & A2 & S1 & S2); split; auto.
    + left. eapply agrees_mono; [|exact A1]. intros e f P. split; [eapply whole_mono; eauto|]. apply (STEP _ _ Q _ _ P).
    + assert (MO : forall e f, paired (kid_of c) e f -> R' e f).
      { intros e f P. split; [eapply whole_mono; eauto|]. intros x X. apply (STEP _ _ Q _ _ P). tauto. }
      destruct A2 as [A2|A2]; [left|right; split; auto]; (eapply agrees_mono; [|eassumption]); auto.
Qed.
End Pair.
