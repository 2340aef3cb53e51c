(** C72: JSMap and JSSet compared with dict and set. *)
From Coq Require Import List NArith ZArith Bool Arith Lia Permutation.
From Verif Require Import Base Dict ModelTags SpecNumber ModelArray ModelValue ModelObject ModelMap ModelHeap ModelEncode ModelEq SpecEq
  ModelMixedEq SpecMixedEq MixedEqFacts HashFacts.
Import ListNotations.
Open Scope nat_scope.

(** [dict_key v] is the key [v] is in a dict or set: the keys of two values are equal when one finds the other
    (equal hashes, and identical or ==); None when [v] is not hashable. Any type of keys with a decidable equality. *)
Definition key_test {K} (keqb : K -> K -> bool) : Prop := forall a b, keqb a b = true <-> a = b.
(** The entries of a dict: every key is hashable and there is one entry for each. *)
Definition dict_entries {K} (dict_key : val -> option K) (l : list (val * val)) : Prop :=
  (forall k v, In (k, v) l -> dict_key k <> None) /\ NoDup (map (fun p => dict_key (fst p)) l).
Definition set_members {K} (dict_key : val -> option K) (l : list val) : Prop :=
  (forall v, In v l -> dict_key v <> None) /\ NoDup (map dict_key l).

(** A JSMap whose keys are hashable equals a dict exactly when the entries of the dict can be put in an order in which
    they match the items of the JSMap one by one: the same key in the sense of a dict, the same value. *)
Theorem C72_map_dict : forall K keqb H (dict_key : val -> option K) leaf_eq leaf_same op a b m l, key_test keqb ->
  nth_error H a = Some (OMap m) -> nth_error H b = Some (ODict l) ->
  (forall s k v, In (s, (k, v)) m -> dict_key k <> None) -> dict_entries dict_key l ->
  exists z : bool, decide op (mixed_eq keqb H dict_key leaf_eq leaf_same a b) = Some (if z then Yes else No) /\
    (z = true <-> exists l', Permutation l l' /\
       Forall2 (fun p q => dict_key (fst p) = dict_key (fst q) /\ same H op leaf_same (snd p) (snd q)) (map snd m) l').
Proof.
  intros K keqb H dict_key leaf_eq leaf_same op a b m l KS Ha Hb HK [_ ND]. unfold mixed_eq. rewrite Ha, Hb.
  apply (map_vs_dict_hashable keqb KS); auto.
  intros k v I. apply in_map_iff in I as [[s [k' v']] [E I]]. cbn in E. injection E as -> ->. exact (HK s k v I).
Qed.
Print Assumptions C72_map_dict.
(** A JSSet whose members are hashable equals a set exactly when they have the same members, each once. *)
Theorem C72_set_set : forall K keqb H (dict_key : val -> option K) leaf_eq leaf_same op a b m l, key_test keqb ->
  nth_error H a = Some (OSet m) -> nth_error H b = Some (OPySet l) ->
  (forall s v, In (s, v) m -> dict_key v <> None) -> set_members dict_key l ->
  exists z : bool, decide op (mixed_eq keqb H dict_key leaf_eq leaf_same a b) = Some (if z then Yes else No) /\
    (z = true <-> exists l', Permutation l l' /\ map (fun p => dict_key (snd p)) m = map dict_key l').
Proof.
  intros K keqb H dict_key leaf_eq leaf_same op a b m l KS Ha Hb HK [_ ND]. unfold mixed_eq. rewrite Ha, Hb.
  rewrite <- (map_map snd dict_key). apply (set_vs_set_hashable keqb KS); auto.
  intros v I. apply in_map_iff in I as [[s v'] [E I]]. cbn in E. subst v'. exact (HK s v I).
Qed.
Print Assumptions C72_set_set.
(** So the insertion order of a JSMap does not matter. *)
Theorem C72_order_irrelevant : forall K keqb H (dict_key : val -> option K) leaf_eq leaf_same op a a' b m m' l, key_test keqb ->
  nth_error H a = Some (OMap m) -> nth_error H a' = Some (OMap m') -> nth_error H b = Some (ODict l) -> Permutation m m' ->
  (forall s k v, In (s, (k, v)) m -> dict_key k <> None) -> dict_entries dict_key l ->
  decide op (mixed_eq keqb H dict_key leaf_eq leaf_same a b) = decide op (mixed_eq keqb H dict_key leaf_eq leaf_same a' b).
Proof.
  assert (PF : forall (P : val * val -> val * val -> Prop) x y l, Permutation x y -> Forall2 P x l -> exists l', Permutation l l' /\ Forall2 P y l').
  { intros P x y l PP. revert l. induction PP as [|p x y PP IH|p q x|x y z P1 IH1 P2 IH2]; intros l F.
    - inversion F; subst. exists []. split; auto.
    - inversion F as [|? w ? t M F' ]; subst. destruct (IH _ F') as [l' [Q1 Q2]]. exists (w :: l'). split; auto.
    - inversion F as [|? w ? t M F' ]; subst. inversion F' as [|? u ? r M' F'' ]; subst. exists (u :: w :: r). split; [apply perm_swap|]. auto.
    - destruct (IH1 _ F) as [l1 [Q1 Q2]]. destruct (IH2 _ Q2) as [l2 [Q3 Q4]]. exists l2. split; auto. eapply perm_trans; eauto. }
  intros K keqb H dict_key leaf_eq leaf_same op a a' b m m' l KS Ha Ha' Hb PM HK DE.
  destruct (C72_map_dict K keqb H dict_key leaf_eq leaf_same op a b m l KS Ha Hb HK DE) as [z [-> E]].
  destruct (C72_map_dict K keqb H dict_key leaf_eq leaf_same op a' b m' l KS Ha' Hb) as [z' [-> E']]; auto.
  { intros s k v I. apply (HK s k v). eapply Permutation_in; [symmetry; exact PM|exact I]. }
  assert (z = true <-> z' = true) as Q.
  { rewrite E, E'. split; intros [l' [P F]].
    - destruct (PF _ _ _ _ (Permutation_map snd PM) F) as [l2 [P2 F2]]. exists l2. split; auto. eapply perm_trans; eauto.
    - destruct (PF _ _ _ _ (Permutation_map snd (Permutation_sym PM)) F) as [l2 [P2 F2]]. exists l2. split; auto. eapply perm_trans; eauto. }
  destruct z, z'; auto; destruct Q as [Q1 Q2]; [discriminate (Q1 eq_refl)|discriminate (Q2 eq_refl)].
Qed.
Print Assumptions C72_order_irrelevant.

(** Two JSMaps are equal when their items are, in order; two JSSets when their members are. *)
Theorem C72_map_map : forall K keqb H (dict_key : val -> option K) leaf_eq leaf_same op a b m m',
  nth_error H a = Some (OMap m) -> nth_error H b = Some (OMap m') ->
  exists z : bool, decide op (mixed_eq keqb H dict_key leaf_eq leaf_same a b) = Some (if z then Yes else No) /\
    (z = true <-> Forall2 (fun p q => same H op leaf_same (fst p) (fst q) /\ same H op leaf_same (snd p) (snd q)) (map snd m) (map snd m')).
Proof.
  intros K keqb H dict_key leaf_eq leaf_same op a b m m' Ha Hb. unfold mixed_eq. rewrite Ha, Hb.
  destruct (length m =? length m') eqn:L; cbn [negb].
  - apply Nat.eqb_eq in L. rewrite decide_mall. eexists. split; [|apply (forallb_flat H dict_key); rewrite !map_length; exact L]. destruct (forallb _ _); reflexivity.
  - apply Nat.eqb_neq in L. exists false. split; auto. split; [discriminate|]. intros F. apply Forall2_length' in F. rewrite !map_length in F. contradiction.
Qed.
Print Assumptions C72_map_map.
Theorem C72_jsset_jsset : forall K keqb H (dict_key : val -> option K) leaf_eq leaf_same op a b m m',
  nth_error H a = Some (OSet m) -> nth_error H b = Some (OSet m') ->
  exists z : bool, decide op (mixed_eq keqb H dict_key leaf_eq leaf_same a b) = Some (if z then Yes else No) /\
    (z = true <-> Forall2 (same H op leaf_eq) (map snd m) (map snd m')).
Proof.
  intros K keqb H dict_key leaf_eq leaf_same op a b m m' Ha Hb. unfold mixed_eq. rewrite Ha, Hb.
  destruct (length m =? length m') eqn:L; cbn [negb].
  - apply Nat.eqb_eq in L. rewrite decide_mall. eexists. split; [|apply (forallb_combine H dict_key); rewrite !map_length; exact L]. destruct (forallb _ _); reflexivity.
  - apply Nat.eqb_neq in L. exists false. split; auto. split; [discriminate|]. intros F. apply Forall2_length' in F. rewrite !map_length in F. contradiction.
Qed.
Print Assumptions C72_jsset_jsset.

(** [dict == JSMap] is [JSMap == dict], and [set == JSSet] is [JSSet == set]. *)
Definition counterparts (x y : obj) : bool :=
  match x, y with OMap _, ODict _ | OSet _, OPySet _ => true | _, _ => false end.
Fixpoint definite (w : tree) : Prop := match w with Done NotImpl => False | Ask _ _ k => forall x, definite (k x) | _ => True end.
Lemma definite_mall H leaf l k : definite k -> definite (mall H leaf l k).
Proof.
  intros D. induction l as [|[v w] l IH]; cbn [mall]; auto. unfold mask.
  destruct v; try (destruct (leaf _ _); cbn; auto; fail). destruct w; try (destruct (leaf _ _); cbn; auto; fail).
  destruct (followed _ _ _); [intros []; cbn; auto|destruct (leaf _ _); cbn; auto].
Qed.
Lemma definite_mdict {K} (keqb : K -> K -> bool) H dk leaf d l : definite (mdict keqb H dk leaf d l).
Proof.
  induction d as [|[x v] d IH]; cbn [mdict]; [exact I|]. destruct (dict_find keqb dk x l) as [w|]; [|exact I]. unfold mask.
  destruct v; try (destruct (leaf _ _); cbn; auto; fail). destruct w; try (destruct (leaf _ _); cbn; auto; fail).
  destruct (followed _ _ _); [intros []; cbn; auto|destruct (leaf _ _); cbn; auto].
Qed.
Lemma definite_follow wrapped sub w r : definite w -> pfollow wrapped sub w r -> r <> Returned NotImpl.
Proof. intros D F. induction F as [[]|e|a b f x r P F IH|a b f e P]; try discriminate; [destruct D|]. apply IH. apply D. Qed.
Theorem C72_either_side : forall K keqb H (dict_key : val -> option K) leaf_eq leaf_same a b x y r,
  nth_error H a = Some x -> nth_error H b = Some y -> counterparts x y = true ->
  (pop (mixed_eq keqb H dict_key leaf_eq leaf_same) (class_sub H) b a r <-> pop (mixed_eq keqb H dict_key leaf_eq leaf_same) (class_sub H) a b r).
Proof.
  intros K keqb H dict_key leaf_eq leaf_same a b x y r Ha Hb C. set (cls := mixed_eq keqb H dict_key leaf_eq leaf_same).
  assert (a <> b) as NE. { intros ->. rewrite Ha in Hb. injection Hb as <-. destruct x; discriminate. }
  assert (class_sub H a b = false /\ class_sub H b a = false) as [S1 S2]. { unfold class_sub. rewrite Ha, Hb. destruct x, y; try discriminate; auto. }
  assert (D1 : definite (cls a b)).
  { unfold cls, mixed_eq. rewrite Ha, Hb. destruct x, y; try discriminate.
    - unfold map_vs_dict. destruct (negb _); [exact I|]. destruct (dict_of _ _ _ _); [|apply definite_mall; exact I]. destruct (negb _); [exact I|]. apply definite_mdict.
    - unfold set_vs_set. destruct (negb _); [exact I|]. destruct (set_of _ _ _ _); [|apply definite_mall; exact I]. cbn. destruct (_ && _); exact I. }
  assert (D2 : cls b a = Done NotImpl). { unfold cls, mixed_eq. rewrite Ha, Hb. destruct x, y; try discriminate; auto. }
  assert (P2 : forall r, plain cls (class_sub H) b a r -> r = Returned NotImpl).
  { intros r0 P. inversion P; subst; [contradiction|]. rewrite D2 in *. match goal with F : pfollow _ _ (Done _) _ |- _ => inversion F; auto end. }
  assert (P1 : forall r, plain cls (class_sub H) a b r -> r <> Returned NotImpl).
  { intros r0 P. inversion P; subst; [contradiction|]. eapply definite_follow; eauto. }
  assert (P3 : plain cls (class_sub H) b a (Returned NotImpl)). { apply pl_run; auto. rewrite D2. constructor. }
  split; intros P.
  - inversion P as [? ? u v r1 ? O Q1 Q2|? ? u v r2 ? O Q1 Q2 Q3|? ? u v O Q1 Q2]; subst; unfold ordering in O; rewrite S2 in O; destruct O as [-> ->].
    + apply P2 in Q1. subst r1. inversion Q2.
    + apply (po_first cls (class_sub H) a b a b r2); auto. unfold ordering. rewrite S1. auto.
    + exfalso. exact (P1 _ Q2 eq_refl).
  - inversion P as [? ? u v r1 ? O Q1 Q2|? ? u v r2 ? O Q1 Q2 Q3|? ? u v O Q1 Q2]; subst; unfold ordering in O; rewrite S1 in O; destruct O as [-> ->].
    + apply (po_second cls (class_sub H) b a b a r1); auto. unfold ordering. rewrite S2. auto.
    + exfalso. exact (P1 _ Q1 eq_refl).
    + exfalso. exact (P1 _ Q1 eq_refl).
Qed.
Print Assumptions C72_either_side.

(** * Keys that are not hashable *)
(** The documentation says a JSSet with members that are not hashable cannot equal a set. What holds: the items are
    compared in order. So they are not equal when == of a value that is not hashable and one that is, is False.
    Missing: bytearrays (see below) and user classes. *)
Theorem C72_unhashable_map_partial : forall K keqb H (dict_key : val -> option K) leaf_eq leaf_same op a b m l s k v, key_test keqb ->
  nth_error H a = Some (OMap m) -> nth_error H b = Some (ODict l) -> In (s, (k, v)) m -> dict_key k = None ->
  exists z : bool, decide op (mixed_eq keqb H dict_key leaf_eq leaf_same a b) = Some (if z then Yes else No) /\
    (z = true <-> Forall2 (fun p q => same H op leaf_same (fst p) (fst q) /\ same H op leaf_same (snd p) (snd q)) (map snd m) l).
Proof.
  intros K keqb H dict_key leaf_eq leaf_same op a b m l s k v KS Ha Hb I N. unfold mixed_eq. rewrite Ha, Hb.
  eapply map_vs_dict_unhashable; [|exact N]. apply (in_map snd) in I. exact I.
Qed.
Print Assumptions C72_unhashable_map_partial.
Theorem C72_unhashable_set_partial : forall K keqb H (dict_key : val -> option K) leaf_eq leaf_same op a b m l s v, key_test keqb ->
  nth_error H a = Some (OSet m) -> nth_error H b = Some (OPySet l) -> In (s, v) m -> dict_key v = None -> set_members dict_key l ->
  exists z : bool, decide op (mixed_eq keqb H dict_key leaf_eq leaf_same a b) = Some (if z then Yes else No) /\
    (z = true <-> Forall2 (same H op leaf_eq) (map snd m) l) /\
    ((forall w, dict_key w <> None -> equal_to H op leaf_eq v w = false) -> z = false).
Proof.
  intros K keqb H dict_key leaf_eq leaf_same op a b m l s v KS Ha Hb I N [HK _]. unfold mixed_eq. rewrite Ha, Hb.
  destruct (set_vs_set_unhashable keqb H dict_key op leaf_eq (map snd m) l v) as [z [E Z]]; auto. { apply (in_map snd) in I. exact I. }
  exists z. split; auto. split; auto. intros F. destruct z; auto. exfalso. apply (in_map snd) in I. cbn in I.
  assert (exists w, In w l /\ same H op leaf_eq v w) as [w [W1 W2]].
  { destruct Z as [Z _]. specialize (Z eq_refl). revert I. generalize (map snd m) as ms, Z. clear. intros ms Z. induction Z as [|x y l m M F IH]; [intros []|]. intros [->|I]; [exists y; split; [left|]; auto|]. destruct (IH I) as [w [W1 W2]]. exists w. split; [right|]; auto. }
  unfold same in W2. rewrite (F w (HK w W1)) in W2. discriminate.
Qed.
Print Assumptions C72_unhashable_set_partial.

(** For the witnesses: hashing as the encoder's model has it, == by that, and by content for bytes and bytearray. *)
Definition content_of (H : heap) (v : val) : option bytes :=
  match v with VRef o => match nth_error H o with Some (OBytes d) | Some (OByteArray d) => Some d | _ => None end | _ => None end.
Definition ex_key (H : heap) (v : val) : option hkey := hash H (S (length H)) v.
Definition ex_eq (H : heap) (v w : val) : bool :=
  match content_of H v, content_of H w with
  | Some d, Some d' => listN_eqb d d'
  | _, _ => match ex_key H v, ex_key H w with Some x, Some y => hkey_eqb x y | _, _ => false end
  end.
Definition ex_compare (H : heap) (a b : nat) : option answer :=
  decide (fun _ _ => false) (mixed_eq hkey_eqb H (ex_key H) (ex_eq H) (ex_eq H) a b).

(** JSSet([bytearray()]) == {b""}: True, although bytearray() is not hashable. *)
Theorem C72_unhashable_refuted : exists H s v l,
  nth_error H 0 = Some (OSet [(s, v)]) /\ nth_error H 1 = Some (OPySet l) /\ set_members (ex_key H) l /\
  ex_key H v = None /\ ex_compare H 0 1 = Some Yes.
Proof.
  exists [OSet [(SId 2, VRef 2)]; OPySet [VRef 3]; OByteArray []; OBytes []], (SId 2), (VRef 2), [VRef 3].
  split; [reflexivity|]. split; [reflexivity|]. split; [|split; reflexivity].
  split; [intros v [<-|[]]; discriminate|]. cbn. constructor; [intros []|constructor].
Qed.
Print Assumptions C72_unhashable_refuted.
(** With such keys the order of the dict's entries matters: a JSMap with the keys bytearray(b"a"), bytearray(b"b") equals
    one of two dicts that are equal to each other. *)
Theorem C72_dict_order_refuted : exists H m l l',
  nth_error H 0 = Some (OMap m) /\ nth_error H 1 = Some (ODict l) /\ nth_error H 2 = Some (ODict l') /\ Permutation l l' /\
  dict_entries (ex_key H) l /\ ex_compare H 0 1 = Some Yes /\ ex_compare H 0 2 = Some No.
Proof.
  set (m := [(SId 3, (VRef 3, VInt 1)); (SId 4, (VRef 4, VInt 2))]). set (l := [(VRef 5, VInt 1); (VRef 6, VInt 2)]). set (l' := [(VRef 6, VInt 2); (VRef 5, VInt 1)]).
  exists [OMap m; ODict l; ODict l'; OByteArray [97%N]; OByteArray [98%N]; OBytes [97%N]; OBytes [98%N]], m, l, l'.
  split; [reflexivity|]. split; [reflexivity|]. split; [reflexivity|]. split; [apply perm_swap|]. split; [|split; reflexivity].
  split; [intros k v [Q|[Q|[]]]; injection Q as <- <-; discriminate|]. cbn. constructor; [intros [Q|[]]; discriminate|]. constructor; [intros []|constructor].
Qed.
Print Assumptions C72_dict_order_refuted.
(** == is not transitive: JSMap([(1, 1), (2, 2)]) == {1: 1, 2: 2} == JSMap([(2, 2), (1, 1)]), but the JSMaps differ. *)
Theorem C72_transitive_refuted : exists H, ex_compare H 0 1 = Some Yes /\ ex_compare H 2 1 = Some Yes /\ ex_compare H 0 2 = Some No.
Proof.
  exists [OMap [(SNum 1 0, (VInt 1, VInt 1)); (SNum 1 1, (VInt 2, VInt 2))]; ODict [(VInt 1, VInt 1); (VInt 2, VInt 2)];
          OMap [(SNum 1 1, (VInt 2, VInt 2)); (SNum 1 0, (VInt 1, VInt 1))]].
  split; [reflexivity|]. split; reflexivity.
Qed.
Print Assumptions C72_transitive_refuted.

(** The examples of the documentation: JSMap([(x, 0)]) == {y: 0} for equal tuples x and y, and JSMap([(x, 0), (y, 0)]) is
    not equal to it; a JSMap with the keys 1 and "a" against {"a": .., 1.0: ..}. *)
Definition doc_heap : heap :=
  [OMap [(SId 4, (VRef 4, VInt 0))]; OMap [(SId 4, (VRef 4, VInt 0)); (SId 5, (VRef 5, VInt 0))]; ODict [(VRef 5, VInt 0)];
   OMap [(SNum 1 0, (VInt 1, VInt 7)); (SStr [97%N], (VStr [97%N], VNone))]; OSeq true [VInt 0]; OSeq true [VInt 0];
   ODict [(VStr [97%N], VNone); (VFloat 0x3FF0000000000000, VInt 7)]; OSet [(SNum 1 0, VInt 1); (SBool true, VBool true)]; OPySet [VInt 1]].
Example C72_example : ex_compare doc_heap 0 2 = Some Yes /\ ex_compare doc_heap 1 2 = Some No /\ ex_compare doc_heap 3 6 = Some Yes /\
  ex_compare doc_heap 7 8 = Some No.
Proof. repeat split; vm_compute; reflexivity. Qed.
Example C72_case : key_test hkey_eqb /\ exists m l, nth_error doc_heap 3 = Some (OMap m) /\ nth_error doc_heap 6 = Some (ODict l) /\
  (forall s k v, In (s, (k, v)) m -> ex_key doc_heap k <> None) /\ dict_entries (ex_key doc_heap) l.
Proof.
  split; [exact hkey_eqb_spec|]. eexists _, _. split; [reflexivity|]. split; [reflexivity|]. split.
  - intros s k v [Q|[Q|[]]]; injection Q as <- <- <-; vm_compute; discriminate.
  - split; [intros k v [Q|[Q|[]]]; injection Q as <- <-; vm_compute; discriminate|].
    vm_compute. constructor; [intros [Q|[]]; discriminate|]. constructor; [intros []|constructor].
Qed.
